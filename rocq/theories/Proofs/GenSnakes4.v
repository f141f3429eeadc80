(** Proofs about straight snakes and about the grids of pictures. *)
From Coq Require Import ZArith Lia Permutation.
From Verif Require Import Spec.GenSnakesSpec Proofs.Arrays Proofs.Snakes Proofs.HiddenSnakes Proofs.GenSnakes Proofs.GenSnakes2 Proofs.GenSnakes3.

(** ** straight snakes *)
Section Straight.
Local Open Scope Z_scope.
Variable n : nat.
Let ndim := (1 + n + 1 + n + 1)%nat.
Let m := 1 + Z.of_nat n.
Definition keep (k : nat) (l : list nat) : list nat := l.
Lemma keep_shuffles : shuffles keep.
Proof. intros k l. apply Permutation_refl. Qed.
Definition up (i j : Z) (rounds : nat) : list site := map (fun t => (i - Z.of_nat t, j)) (seq 0 rounds).
Lemma up_S i j r : up i j (S r) = (i, j) :: up (i - 1) j r.
Proof.
  unfold up. cbn [seq map]. f_equal; [f_equal; lia|]. rewrite <- seq_shift, map_map. apply map_ext. intro t. f_equal. lia.
Qed.
Lemma grow_up rounds : forall b i j k lij ldir, (length ldir + rounds <= n)%nat -> board_is n b lij -> near n (length ldir) (i, j) ->
  (forall a, In a lij -> i < fst a) ->
  grow keep ndim rounds b i j k [0; 1; 2; 3]%nat lij ldir = Ok (Some (lij ++ up i j rounds, ldir ++ repeat 0 rounds)%nat%list, (k + rounds)%nat, [0; 1; 2; 3]%nat).
Proof.
  induction rounds as [|r IH]; intros b i j k lij ldir HL HB HN HU.
  - cbn. rewrite !app_nil_r, Nat.add_0_r. reflexivity.
  - cbn [grow]. unfold keep at 1.
    assert (T : try_directions ndim b i j [0; 1; 2; 3]%nat = Ok (Some (0%nat, (i - 1, j)))).
    { cbn [try_directions index lDirectionIncr nth_error bind fst snd]. change (i + -1) with (i - 1). rewrite Z.add_0_r.
      assert (N1 : near n (S (length ldir)) (i - 1, j)) by (unfold near in *; cbn [fst snd] in *; lia).
      destruct (near_in n _ _ N1 ltac:(lia)) as [I J]. cbn [fst snd] in I, J.
      unfold board_get. rewrite !(wrap_in (1 + n + 1 + n + 1)) by assumption. cbn [bind].
      replace (b (Z.to_nat (i - 1)) (Z.to_nat j)) with (-1); [reflexivity|]. symmetry. apply (HB _ _ I J).
      intro K. specialize (HU _ K). cbn [fst] in HU. lia. }
    fold ndim. rewrite T. cbn [bind]. destruct (board_set_ok n b lij _ i j 0 HB HN ltac:(lia)) as [b' [E HB']].
    fold ndim in E. rewrite E. cbn [bind]. unfold keep at 2. rewrite IH.
    + rewrite up_S. cbn [repeat]. rewrite <- !app_assoc. cbn [app]. rewrite Nat.add_succ_r. reflexivity.
    + rewrite app_length. cbn [length]. lia.
    + exact HB'.
    + rewrite app_length. unfold near in *. cbn [fst snd length] in *. lia.
    + intros a Ha. apply in_app_or in Ha. destruct Ha as [Ha|[<-|[]]]; [specialize (HU a Ha); lia|cbn [fst]; lia].
Qed.
Lemma straight : (0 < n)%nat -> exists x y key, genSnakes keep 1 1 [] n = Some (Ok ([(x, y)], [key])) /\ a_h x = (n + 2)%nat /\ a_w x = 3%nat.
Proof.
  intro Hn. destruct (grow_start n keep keep_shuffles 0 [0; 1; 2; 3]%nat (Permutation_refl _)) as [o [k' [dirs' [G [_ K]]]]].
  assert (U : grow keep ndim n (fun _ _ => -1) m m 0 [0; 1; 2; 3]%nat [] [] = Ok (Some (up m m n, repeat 0%nat n), n, [0; 1; 2; 3]%nat)).
  { rewrite (grow_up n); [reflexivity| | | |intros a []].
    - cbn. lia.
    - intros i j _ _. cbn. tauto.
    - unfold near. cbn [fst snd length]. fold m. lia. }
  fold ndim m in G. rewrite U in G. assert (Eo : o = Some (up m m n, repeat 0%nat n)) by congruence. rewrite Eo in K. clear G Eo.
  destruct K as [e F].
  destruct (draw_ok n _ _ e F Hn) as [imin [jmin [x [y [E [_ [B [imax [jmax [B' [I1 [I2 [I3 [I4 [EH EW]]]]]]]]]]]]]]].
  exists x, y, (up m m n). split.
  - unfold genSnakes. cbn [gen_loop one_snake]. unfold attempt. fold ndim m. rewrite U. cbn [bind existsb]. rewrite E. reflexivity.
  - apply in_map_iff in I1, I2, I3, I4. destruct I1 as [a1 [<- I1]]. destruct I2 as [a2 [<- I2]]. destruct I3 as [a3 [<- I3]]. destruct I4 as [a4 [<- I4]].
    assert (F1 : In (m, m) (up m m n)) by (apply in_map_iff; exists 0%nat; split; [f_equal; lia|apply in_seq; lia]).
    assert (F2 : In (m - Z.of_nat (n - 1), m) (up m m n)) by (apply in_map_iff; exists (n - 1)%nat; split; [reflexivity|apply in_seq; lia]).
    assert (Q : forall a, In a (up m m n) -> m - Z.of_nat (n - 1) <= fst a <= m /\ snd a = m).
    { intros a Ha. apply in_map_iff in Ha. destruct Ha as [t [<- Ht]]. apply in_seq in Ht. cbn [fst snd]. lia. }
    pose proof (B _ F1). pose proof (B _ F2). pose proof (B' _ F1). pose proof (B' _ F2).
    pose proof (Q _ I1). pose proof (Q _ I2). pose proof (Q _ I3). pose proof (Q _ I4). cbn [fst snd] in *. lia.
Qed.
End Straight.

(** ** no cells *)
Lemma gen_zero shuffle fuel N used : (~ In [] used -> genSnakes shuffle (S fuel) (S N) used 0 = Some (Err ValueError)) /\
  (In [] used -> genSnakes shuffle fuel (S N) used 0 = None).
Proof.
  split; intro H; unfold genSnakes; cbn [gen_loop].
  - cbn [one_snake]. unfold attempt. cbn [grow bind].
    destruct (existsb (same_key []) used) eqn:E; [apply used_spec in E; contradiction|]. reflexivity.
  - assert (Q : forall k dirs, one_snake shuffle fuel 0 used k dirs = None).
    { induction fuel as [|fuel IH]; intros k dirs; [reflexivity|]. cbn [one_snake]. unfold attempt. cbn [grow bind].
      replace (existsb (same_key []) used) with true by (symmetry; apply used_spec, H). apply IH. }
    rewrite Q. reflexivity.
Qed.

(** ** grids *)
Definition fitting (N : nat) (img : arr3) : Prop := a_c img = 3%nat /\ (a_h img <= N)%nat /\ (a_w img <= N)%nat.
Definition tile_of (img : arr3) (i j c : nat) (d : Qc) : Qc :=
  if ((i <? a_h img) && (j <? a_w img))%nat then aget img i j c else d.

Lemma next_tile k nh N : (0 < nh)%nat ->
  ((if k mod nh =? nh - 1 then k / nh * N + N else k / nh * N) = S k / nh * N /\
   (if k mod nh =? nh - 1 then 0 else k mod nh * N + N) = S k mod nh * N)%nat.
Proof.
  intro H. pose proof (Nat.mod_upper_bound k nh ltac:(lia)) as U. pose proof (Nat.div_mod k nh ltac:(lia)) as D.
  destruct (Nat.eqb_spec (k mod nh) (nh - 1)) as [E|E].
  - assert (Q : S k = (nh * (k / nh + 1) + 0)%nat) by lia.
    rewrite <- (Nat.div_unique (S k) nh (k / nh + 1) 0) by (lia || exact Q). rewrite <- (Nat.mod_unique (S k) nh (k / nh + 1) 0) by (lia || exact Q). lia.
  - assert (Q : S k = (nh * (k / nh) + S (k mod nh))%nat) by lia.
    rewrite <- (Nat.div_unique (S k) nh (k / nh) (S (k mod nh))) by (lia || exact Q).
    rewrite <- (Nat.mod_unique (S k) nh (k / nh) (S (k mod nh))) by (lia || exact Q). lia.
Qed.
Lemma tile_bound k nv nh N : (k < nv * nh)%nat -> (k / nh * N + N <= N * nv /\ k mod nh * N + N <= N * nh)%nat.
Proof.
  intro H. assert (nh <> 0%nat) by (intros ->; lia). pose proof (Nat.mod_upper_bound k nh ltac:(lia)).
  assert (k / nh < nv)%nat by (apply Nat.div_lt_upper_bound; lia). nia.
Qed.
Lemma paste_ok N nv nh f k img : (k < nv * nh)%nat -> fitting N img ->
  exists f', paste (N * nv) (N * nh) f (k / nh * N) (k mod nh * N) img = Ok f' /\
    forall t i j c, (i < N)%nat -> (j < N)%nat ->
      f' (t / nh * N + i)%nat (t mod nh * N + j)%nat c =
      if (t =? k)%nat then tile_of img i j c (f (t / nh * N + i)%nat (t mod nh * N + j)%nat c) else f (t / nh * N + i)%nat (t mod nh * N + j)%nat c.
Proof.
  intros Hk [HC [HH HW]]. destruct (tile_bound k nv nh N Hk) as [B1 B2]. unfold paste. rewrite HC. cbn [Nat.eqb ensure bind].
  rewrite !Nat.min_r by lia. replace (k / nh * N + a_h img - k / nh * N)%nat with (a_h img) by lia.
  replace (k mod nh * N + a_w img - k mod nh * N)%nat with (a_w img) by lia. rewrite !Nat.eqb_refl, !orb_true_r. cbn [andb ensure bind].
  eexists. split; [reflexivity|]. intros t i j c Hi Hj. cbn beta. unfold tile_of.
  assert (nh <> 0%nat) by (intros ->; lia).
  destruct (Nat.eqb_spec t k) as [->|Nt].
  - replace (k / nh * N + i - k / nh * N)%nat with i by lia. replace (k mod nh * N + j - k mod nh * N)%nat with j by lia.
    replace (k / nh * N <=? k / nh * N + i)%nat with true by (symmetry; apply Nat.leb_le; lia).
    replace (k mod nh * N <=? k mod nh * N + j)%nat with true by (symmetry; apply Nat.leb_le; lia).
    replace (k / nh * N + i <? k / nh * N + a_h img)%nat with (i <? a_h img)%nat by (apply eq_true_iff_eq; rewrite !Nat.ltb_lt; lia).
    replace (k mod nh * N + j <? k mod nh * N + a_w img)%nat with (j <? a_w img)%nat by (apply eq_true_iff_eq; rewrite !Nat.ltb_lt; lia).
    reflexivity.
  - destruct (_ && _) eqn:E; [|reflexivity]. exfalso. apply andb_true_iff in E. destruct E as [E1 E2].
    apply andb_true_iff in E1, E2. rewrite !Nat.leb_le, !Nat.ltb_lt in E1, E2. apply Nt.
    rewrite (Nat.div_mod t nh), (Nat.div_mod k nh) by assumption.
    assert (t / nh = k / nh)%nat by nia. assert (t mod nh = k mod nh)%nat by nia. congruence.
Qed.
Lemma paste_all_ok N nv nh : forall l k f, (k + length l <= nv * nh)%nat -> Forall (fitting N) l -> (0 < nh)%nat ->
  exists f', paste_all N nv nh k (k / nh * N) (k mod nh * N) l f = Ok f' /\
    forall t i j c, (i < N)%nat -> (j < N)%nat ->
      f' (t / nh * N + i)%nat (t mod nh * N + j)%nat c =
      if (t <? k)%nat then f (t / nh * N + i)%nat (t mod nh * N + j)%nat c
      else match nth_error l (t - k) with
           | Some img => tile_of img i j c (f (t / nh * N + i)%nat (t mod nh * N + j)%nat c)
           | None => f (t / nh * N + i)%nat (t mod nh * N + j)%nat c
           end.
Proof.
  induction l as [|img l IH]; intros k f HL HF Hn; cbn [paste_all].
  - exists f. split; [reflexivity|]. intros t i j c _ _. destruct (t <? k)%nat; [reflexivity|]. destruct (t - k)%nat; reflexivity.
  - cbn [length] in HL. inversion HF as [|? ? F1 F2]; subst. destruct (paste_ok N nv nh f k img ltac:(lia) F1) as [f1 [E1 K1]]. rewrite E1. cbn [bind].
    destruct (next_tile k nh N Hn) as [Q1 Q2]. rewrite Q1, Q2. destruct (IH (S k) f1 ltac:(lia) F2 Hn) as [f' [E K]].
    exists f'. split; [exact E|]. intros t i j c Hi Hj. rewrite (K t i j c Hi Hj), (K1 t i j c Hi Hj).
    destruct (Nat.ltb_spec t (S k)) as [L|L]; destruct (Nat.ltb_spec t k) as [L'|L']; destruct (Nat.eqb_spec t k) as [E'|E']; try lia; try reflexivity.
    + subst t. rewrite Nat.sub_diag. reflexivity.
    + replace (t - k)%nat with (S (t - S k)) by lia. reflexivity.
Qed.
Lemma grid_ok nv nh ncell l : (length l <= nv * nh)%nat -> Forall (fitting (ncell + 1)) l -> (0 < nv * nh)%nat ->
  exists g, one_grid nv nh ncell l = Ok g /\ a_h g = ((ncell + 1) * nv)%nat /\ a_w g = ((ncell + 1) * nh)%nat /\ a_c g = 3%nat /\
    forall t i j c, (t < nv * nh)%nat -> (i < ncell + 1)%nat -> (j < ncell + 1)%nat -> (c < 3)%nat ->
      tile (ncell + 1) nh g t i j c = match nth_error l t with Some img => tile_of img i j c 0 | None => 0 end.
Proof.
  intros HL HF HP. assert (Hn : (0 < nh)%nat) by (destruct nh; lia).
  destruct (paste_all_ok (ncell + 1) nv nh l 0 (fun _ _ _ => 0) HL HF Hn) as [f [E K]].
  unfold one_grid. rewrite Nat.div_0_l, Nat.mod_0_l in E by lia. cbn [Nat.mul] in E. rewrite E. cbn [bind].
  eexists. split; [reflexivity|]. do 3 (split; [reflexivity|]). intros t i j c Ht Hi Hj Hc. unfold tile.
  destruct (tile_bound t nv nh (ncell + 1) Ht). rewrite Snakes.aget_atab by lia. rewrite (K t i j c Hi Hj).
  cbn [Nat.ltb Nat.leb]. rewrite Nat.sub_0_r. reflexivity.
Qed.
Lemma nth_error_skip {A} (l : list A) a k : nth_error (skipn a l) k = nth_error l (a + k).
Proof. revert l. induction a as [|a IH]; intros l; [reflexivity|]. destruct l; [destruct k; reflexivity|]. apply IH. Qed.
Lemma nth_error_first {A} (l : list A) a k : (k < a)%nat -> nth_error (firstn a l) k = nth_error l k.
Proof. revert l k. induction a as [|a IH]; intros l k H; [lia|]. destruct l, k; try reflexivity. cbn [firstn nth_error]. apply IH. lia. Qed.
Lemma plot_ok nv nh ncell : (0 < nv * nh)%nat -> forall fuel lX, (length lX <= fuel)%nat -> Forall (fitting (ncell + 1)) lX ->
  exists gs, plot_many_snakes fuel lX nv nh ncell = Some (Ok gs) /\ length gs = ((length lX + (nv * nh - 1)) / (nv * nh))%nat /\
    forall q g, nth_error gs q = Some g -> a_h g = ((ncell + 1) * nv)%nat /\ a_w g = ((ncell + 1) * nh)%nat /\ a_c g = 3%nat /\
      forall t i j c, (t < nv * nh)%nat -> (i < ncell + 1)%nat -> (j < ncell + 1)%nat -> (c < 3)%nat ->
        tile (ncell + 1) nh g t i j c = match nth_error lX (q * (nv * nh) + t) with Some img => tile_of img i j c 0 | None => 0 end.
Proof.
  intro HP. set (P := (nv * nh)%nat) in *. assert (HP1 : (1 <= P)%nat) by lia.
  induction fuel as [|fuel IH]; intros lX HL HF.
  - destruct lX; [|cbn in HL; lia]. exists []. split; [reflexivity|]. split; [cbn [length]; rewrite Nat.div_small by lia; reflexivity|].
    intros [|q] g E; discriminate E.
  - destruct lX as [|img lX'].
    { exists []. split; [reflexivity|]. split; [cbn [length]; rewrite Nat.div_small by lia; reflexivity|]. intros [|q] g E; discriminate E. }
    cbn [plot_many_snakes]. fold P. set (lX := img :: lX') in *.
    assert (F1 : Forall (fitting (ncell + 1)) (firstn P lX)) by (rewrite <- (firstn_skipn P lX) in HF; apply Forall_app in HF; tauto).
    assert (F2 : Forall (fitting (ncell + 1)) (skipn P lX)).
    { rewrite <- (firstn_skipn P lX) in HF. apply Forall_app in HF. tauto. }
    destruct (grid_ok nv nh ncell (firstn P lX)) as [g0 [E0 [H0 [W0 [C0 T0]]]]]; [rewrite firstn_length; fold P; lia|exact F1|exact HP|].
    rewrite E0. destruct (IH (skipn P lX)) as [gs [E [L T]]]; [rewrite skipn_length; unfold lX in *; cbn [length] in *; lia|exact F2|].
    rewrite E. exists (g0 :: gs). split; [reflexivity|]. split.
    + cbn [length]. rewrite L, skipn_length. destruct (Nat.le_gt_cases P (length lX)) as [Q|Q].
      * replace (length lX + (P - 1))%nat with (length lX - P + (P - 1) + 1 * P)%nat by lia. rewrite Nat.div_add by lia. lia.
      * replace (length lX - P)%nat with 0%nat by lia. rewrite Nat.div_small by lia.
        assert (1 <= length lX)%nat by (unfold lX; cbn [length]; lia).
        replace (length lX + (P - 1))%nat with ((length lX - 1) + 1 * P)%nat by lia. rewrite Nat.div_add, Nat.div_small by lia. reflexivity.
    + intros [|q] g Eg.
      * cbn in Eg. injection Eg as <-. do 3 (split; [assumption|]). intros t i j c Ht Hi Hj Hc. rewrite (T0 t i j c Ht Hi Hj Hc).
        cbn [Nat.mul Nat.add]. rewrite nth_error_first by exact Ht. reflexivity.
      * cbn in Eg. destruct (T q g Eg) as [T1 [T2 [T3 T4]]]. do 3 (split; [assumption|]). intros t i j c Ht Hi Hj Hc.
        rewrite (T4 t i j c Ht Hi Hj Hc), nth_error_skip. replace (P + (q * P + t))%nat with (S q * P + t)%nat by (cbn [Nat.mul]; lia). reflexivity.
Qed.

(** errors *)
Lemma paste_either H W f ih iw img : a_c img = 3%nat -> (exists f', paste H W f ih iw img = Ok f') \/ paste H W f ih iw img = Err ValueError.
Proof. intro C. unfold paste. rewrite C. cbn [Nat.eqb ensure bind]. destruct (_ && _); cbn [ensure bind]; eauto. Qed.
Lemma paste_all_either N nv nh l : Forall (fun img => a_c img = 3%nat) l -> forall k ih iw f,
  (exists f', paste_all N nv nh k ih iw l f = Ok f') \/ paste_all N nv nh k ih iw l f = Err ValueError.
Proof.
  induction 1 as [|img l C F IH]; intros k ih iw f; cbn [paste_all]; [eauto|].
  destruct (paste_either (N * nv) (N * nh) f ih iw img C) as [[f' E]|E]; rewrite E; cbn [bind]; [apply IH|auto].
Qed.
Lemma paste_big N nv nh f k img : (0 < N)%nat -> (k < nv * nh)%nat -> a_c img = 3%nat ->
  (k / nh = nv - 1 /\ N < a_h img)%nat \/ (k mod nh = nh - 1 /\ N < a_w img)%nat ->
  paste (N * nv) (N * nh) f (k / nh * N) (k mod nh * N) img = Err ValueError.
Proof.
  intros HN Hk HC HB. destruct (tile_bound k nv nh N Hk) as [B1 B2]. unfold paste. rewrite HC. cbn [Nat.eqb ensure bind].
  assert (nv <> 0 /\ nh <> 0)%nat as [Z1 Z2] by nia.
  match goal with |- context [ensure (?a && ?b)] => assert (E : (a && b)%bool = false) end; [|rewrite E; reflexivity].
  apply andb_false_iff. destruct HB as [[A B]|[A B]]; [left|right]; apply orb_false_iff; rewrite A; split; apply Nat.eqb_neq; try lia.
  - assert ((nv - 1) * N + N = N * nv)%nat by nia. lia.
  - assert ((nh - 1) * N + N = N * nh)%nat by nia. lia.
Qed.
Lemma paste_all_big N nv nh : (0 < N)%nat -> (0 < nh)%nat -> forall l, Forall (fun img => a_c img = 3%nat) l -> forall t img k f,
  nth_error l t = Some img -> (k + length l <= nv * nh)%nat ->
  ((k + t) / nh = nv - 1 /\ N < a_h img)%nat \/ ((k + t) mod nh = nh - 1 /\ N < a_w img)%nat ->
  paste_all N nv nh k (k / nh * N) (k mod nh * N) l f = Err ValueError.
Proof.
  intros HN Hh. induction 1 as [|img0 l C F IH]; intros t img k f Ht HL HB; [destruct t; discriminate Ht|]. cbn [paste_all length] in *.
  destruct t as [|t].
  - cbn in Ht. injection Ht as <-. rewrite Nat.add_0_r in HB. rewrite paste_big by (assumption || lia). reflexivity.
  - destruct (paste_either (N * nv) (N * nh) f (k / nh * N) (k mod nh * N) img0 C) as [[f' E]|E]; rewrite E; [|reflexivity]. cbn [bind].
    destruct (next_tile k nh N Hh) as [Q1 Q2]. rewrite Q1, Q2. cbn [nth_error] in Ht.
    apply (IH t img (S k) f' Ht ltac:(lia)). replace (S k + t)%nat with (k + S t)%nat by lia. exact HB.
Qed.
Lemma plot_big nv nh ncell img k : (0 < nv * nh)%nat -> forall fuel lX, (length lX <= fuel)%nat -> Forall (fun img => a_c img = 3%nat) lX ->
  nth_error lX k = Some img ->
  (k mod (nv * nh) / nh = nv - 1 /\ ncell + 1 < a_h img)%nat \/ (k mod nh = nh - 1 /\ ncell + 1 < a_w img)%nat ->
  plot_many_snakes fuel lX nv nh ncell = Some (Err ValueError).
Proof.
  intro HP. set (P := (nv * nh)%nat) in *. assert (Hh : (0 < nh)%nat) by (unfold P in HP; destruct nh; lia).
  intro fuel. revert k. induction fuel as [|fuel IH]; intros k lX HL HC Hk HB.
  - destruct lX; [destruct k; discriminate Hk|cbn in HL; lia].
  - destruct lX as [|img0 lX']; [destruct k; discriminate Hk|]. cbn [plot_many_snakes]. fold P. set (lX := img0 :: lX') in *.
    assert (F1 : Forall (fun img => a_c img = 3%nat) (firstn P lX)) by (rewrite <- (firstn_skipn P lX) in HC; apply Forall_app in HC; tauto).
    assert (F2 : Forall (fun img => a_c img = 3%nat) (skipn P lX)).
    { rewrite <- (firstn_skipn P lX) in HC. apply Forall_app in HC. tauto. }
    destruct (Nat.lt_ge_cases k P) as [Q|Q].
    + unfold one_grid.
      assert (E := paste_all_big (ncell + 1) nv nh ltac:(lia) Hh (firstn P lX) F1 k img 0 (fun _ _ _ => 0)).
      rewrite Nat.div_0_l, Nat.mod_0_l in E by lia. cbn [Nat.mul Nat.add] in E. rewrite E; [reflexivity| | |].
      * rewrite nth_error_first by exact Q. exact Hk.
      * rewrite firstn_length. fold P. lia.
      * rewrite Nat.mod_small in HB by exact Q. exact HB.
    + assert (E := paste_all_either (ncell + 1) nv nh (firstn P lX) F1 0 0 0 (fun _ _ _ => 0)).
      unfold one_grid. destruct E as [[f E]|E]; rewrite E; cbn [bind]; [|reflexivity].
      rewrite (IH (k - P)%nat (skipn P lX)); [reflexivity| |exact F2| |].
      * rewrite skipn_length. unfold lX in *. cbn [length] in *. lia.
      * rewrite nth_error_skip. replace (P + (k - P))%nat with k by lia. exact Hk.
      * assert (M1 : (k mod P = (k - P) mod P)%nat).
        { replace k with (k - P + 1 * P)%nat at 1 by lia. apply Nat.mod_add. lia. }
        assert (M2 : (k mod nh = (k - P) mod nh)%nat).
        { replace k with (k - P + nv * nh)%nat at 1 by (fold P; lia). apply Nat.mod_add. lia. }
        rewrite <- M1, <- M2. exact HB.
Qed.
Lemma plot_never fuel lX nv nh ncell : (nv * nh = 0)%nat -> lX <> [] -> plot_many_snakes fuel lX nv nh ncell = None.
Proof.
  intros HP NE. induction fuel as [|fuel IH]; destruct lX as [|img lX]; try congruence; [reflexivity|].
  cbn [plot_many_snakes]. rewrite HP. cbn [firstn skipn one_grid paste_all bind]. rewrite IH. reflexivity.
Qed.

(** ** mistakes *)
Lemma last_label_ok y : y <> [] -> last_label y = Ok (last y 0%Z).
Proof. intro H. destruct (exists_last H) as [l [z ->]]. unfold last_label. rewrite rev_unit, last_last. reflexivity. Qed.
Lemma mistakes_ok ncell l : Forall (labelled_picture ncell) l -> forall no yes,
  mistakes ncell l no yes = Ok (no ++ map snd (filter (wrong (Z.of_nat ncell + 1)) l), yes ++ map snd (filter (wrong (Z.of_nat ncell + 2)) l))%list.
Proof.
  induction 1 as [|[[y y'] x] l [H1 [H2 [H3 H4]]] F IH]; intros no yes; cbn [mistakes filter map]; [rewrite !app_nil_r; reflexivity|].
  rewrite <- H1, Nat.eqb_refl. cbn [ensure bind]. rewrite H3, Nat.div_mul by lia. rewrite H2, Nat.eqb_refl. cbn [ensure bind].
  assert (NE : y <> []) by (destruct y; [cbn in H2; lia|discriminate]). assert (NE' : y' <> []) by (destruct y'; [cbn in H1; lia|discriminate]).
  rewrite !last_label_ok by assumption. cbn [bind].
  replace ((last y 0 =? Z.of_nat ncell + 1) || (last y 0 =? Z.of_nat ncell + 2))%Z with true
    by (symmetry; apply orb_true_iff; rewrite !Z.eqb_eq; exact H4).
  cbn [ensure bind]. set (a := last y 0%Z) in *. set (b := last y' 0%Z).
  assert (W : forall z, wrong z (y, y', x) = ((a =? z) && negb (b =? z))%Z) by reflexivity. rewrite !W. clear W.
  destruct (Z.eqb_spec a b) as [E|E].
  - rewrite IH. f_equal. rewrite <- E.
    assert (Q : forall z, ((a =? z) && negb (a =? z) = false)%Z) by (intro z; destruct (a =? z)%Z; reflexivity). rewrite !Q. reflexivity.
  - destruct (Z.eqb_spec (a - Z.of_nat ncell - 1) 0) as [E'|E'].
    + replace ((a =? Z.of_nat ncell + 1) && negb (b =? Z.of_nat ncell + 1))%Z with true
        by (symmetry; apply andb_true_iff; rewrite negb_true_iff, Z.eqb_eq, Z.eqb_neq; lia).
      replace (a =? Z.of_nat ncell + 2)%Z with false by (symmetry; apply Z.eqb_neq; lia). cbn [andb].
      rewrite IH. cbn [map snd]. rewrite <- app_assoc. reflexivity.
    + replace (a =? Z.of_nat ncell + 1)%Z with false by (symmetry; apply Z.eqb_neq; lia). cbn [andb].
      replace ((a =? Z.of_nat ncell + 2) && negb (b =? Z.of_nat ncell + 2))%Z with true
        by (symmetry; apply andb_true_iff; rewrite negb_true_iff, Z.eqb_eq, Z.eqb_neq; lia).
      rewrite IH. cbn [map snd]. rewrite <- app_assoc. reflexivity.
Qed.
