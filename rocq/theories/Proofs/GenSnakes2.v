(** Proofs about genSnakes: the picture of a walk. *)
From Coq Require Import ZArith Lia Permutation.
From Verif Require Import Spec.GenSnakesSpec Proofs.Arrays Proofs.Snakes Proofs.HiddenSnakes Proofs.HiddenSnakes2 Proofs.HiddenSnakes3 Proofs.HiddenSnakes4 Proofs.GenSnakes.
Local Open Scope Z_scope.

Lemma fold_min_le l : forall a, fold_left Z.min l a <= a /\ (forall z, In z l -> fold_left Z.min l a <= z) /\
  (fold_left Z.min l a = a \/ In (fold_left Z.min l a) l).
Proof.
  induction l as [|b l IH]; intro a; cbn [fold_left]; [repeat split; [lia|intros z []|auto]|].
  destruct (IH (Z.min a b)) as [A [B C]]. split; [lia|]. split.
  - intros z [<-|H]; [lia|auto].
  - destruct C as [C|C]; [|right; right; exact C]. rewrite C. destruct (Z.min_spec a b) as [[_ ->]|[_ ->]]; [left|right; left]; reflexivity.
Qed.
Lemma fold_max_le l : forall a, a <= fold_left Z.max l a /\ (forall z, In z l -> z <= fold_left Z.max l a) /\
  (fold_left Z.max l a = a \/ In (fold_left Z.max l a) l).
Proof.
  induction l as [|b l IH]; intro a; cbn [fold_left]; [repeat split; [lia|intros z []|auto]|].
  destruct (IH (Z.max a b)) as [A [B C]]. split; [lia|]. split.
  - intros z [<-|H]; [lia|auto].
  - destruct C as [C|C]; [|right; right; exact C]. rewrite C. destruct (Z.max_spec a b) as [[_ ->]|[_ ->]]; [right; left|left]; reflexivity.
Qed.
Lemma zmin_ok l : l <> [] -> exists v, zmin_of l = Ok v /\ In v l /\ forall z, In z l -> v <= z.
Proof.
  destruct l as [|a l]; [congruence|]. intros _. destruct (fold_min_le l a) as [A [B C]]. eexists. split; [reflexivity|]. split.
  - destruct C as [->|C]; [left; reflexivity|right; exact C].
  - intros z [<-|H]; auto.
Qed.
Lemma zmax_ok l : l <> [] -> exists v, zmax_of l = Ok v /\ In v l /\ forall z, In z l -> z <= v.
Proof.
  destruct l as [|a l]; [congruence|]. intros _. destruct (fold_max_le l a) as [A [B C]]. eexists. split; [reflexivity|]. split.
  - destruct C as [->|C]; [left; reflexivity|right; exact C].
  - intros z [<-|H]; auto.
Qed.

Definition pos (imin jmin : Z) (a : site) : nat * nat := (Z.to_nat (fst a - imin + 1), Z.to_nat (snd a - jmin + 1)).
Definition channel (d : nat) : nat := nth d [0; 2; 1; 4]%nat 3%nat.

Section Draw.
Variables (imin jmin : Z).
Notation pos := (pos imin jmin).
Lemma pos_inj a b : imin - 1 <= fst a -> jmin - 1 <= snd a -> imin - 1 <= fst b -> jmin - 1 <= snd b -> pos a = pos b -> a = b.
Proof.
  intros A1 A2 B1 B2 E. unfold pos in E. injection E as E1 E2. destruct a, b; cbn [fst snd] in *. f_equal; lia.
Qed.
Lemma put_all_spec h w l : forall lbl f,
  (forall p, In p l -> 0 <= fst (fst p) - imin + 1 < Z.of_nat h /\ 0 <= snd (fst p) - jmin + 1 < Z.of_nat w /\ (snd p < 4)%nat) ->
  NoDup (map fst l) ->
  exists f', put_all h w imin jmin lbl l f = Ok f' /\
    (forall k a d, nth_error l k = Some (a, d) ->
       f' (fst (pos a)) (snd (pos a)) = ((S (lbl + k) mod 256)%nat, nth d lDirectionColor [])) /\
    (forall x y, ~ In (x, y) (map (fun p => pos (fst p)) l) -> f' x y = f x y).
Proof.
  induction l as [|[[i j] d] l IH]; intros lbl f HR HD; cbn [put_all].
  - exists f. split; [reflexivity|]. split; [intros [|k] ? ? E; discriminate E|auto].
  - cbn [map fst] in HD. inversion HD as [|? ? HN HD']; subst.
    destruct (HR _ (or_introl eq_refl)) as [R1 [R2 R3]]. cbn [fst snd] in R1, R2, R3.
    assert (Ec : index lDirectionColor d = Ok (nth d lDirectionColor [])).
    { unfold index. rewrite (nth_error_nth' _ []) by (cbn; lia). reflexivity. }
    rewrite Ec. cbn [bind]. unfold put. rewrite !wrap_in by assumption. cbn [bind].
    set (f1 := fun x y => _).
    destruct (IH (S lbl) f1) as [f' [E [K1 K2]]]; [intros p Hp; apply HR; right; exact Hp|exact HD'|].
    exists f'. split; [exact E|]. split.
    + intros [|k] a d' Hk.
      * cbn in Hk. injection Hk as <- <-. rewrite K2.
        -- unfold f1, pos. cbn [fst snd]. rewrite !Nat.eqb_refl. cbn [andb].
           replace (S (lbl + 0)) with (lbl + 1)%nat by lia. reflexivity.
        -- rewrite <- surjective_pairing. rewrite in_map_iff. intros [[[i1 j1] d1] [Ep Hp]].
           destruct (HR _ (or_intror Hp)) as [P1 [P2 _]]. cbn [fst snd] in P1, P2, Ep. apply pos_inj in Ep; [|cbn [fst snd]; lia..].
           apply HN. rewrite <- Ep. exact (in_map fst _ _ Hp).
      * cbn in Hk. rewrite (K1 k a d' Hk). replace (S lbl + k)%nat with (lbl + S k)%nat by lia. reflexivity.
    + intros x y Hxy. rewrite K2; [|intro K; apply Hxy; right; exact K]. unfold f1.
      destruct (Nat.eqb_spec x (Z.to_nat (i - imin + 1))) as [Ex|Ex]; [|reflexivity].
      destruct (Nat.eqb_spec y (Z.to_nat (j - jmin + 1))) as [Ey|Ey]; [|reflexivity]. exfalso. apply Hxy. left. unfold pos. cbn [fst snd].
      congruence.
Qed.
End Draw.

Lemma NoDup_map_in {A B} (f : A -> B) l : (forall a b, In a l -> In b l -> f a = f b -> a = b) -> NoDup l -> NoDup (map f l).
Proof.
  intros H D. induction D as [|a l N D IH]; cbn [map]; constructor.
  - intro K. apply in_map_iff in K. destruct K as [b [E Hb]]. apply N. rewrite (H a b); [exact Hb|left; reflexivity|right; exact Hb|auto].
  - apply IH. intros b c Hb Hc. apply H; right; assumption.
Qed.
Lemma arrows_build p l : l <> [] -> (forall a, In a l -> coloured p a) ->
  (forall k a b, nth_error l k = Some a -> nth_error l (S k) = Some b -> points p a b) -> arrows p l.
Proof.
  induction l as [|a l IH]; [congruence|]. intros _ HC HP. destruct l as [|b l]; [constructor; apply HC; left; reflexivity|].
  constructor; [apply HC; left; reflexivity|exact (HP 0%nat a b eq_refl eq_refl)|]. apply IH.
  - discriminate.
  - intros c Hc. apply HC. right. exact Hc.
  - intros k c d. exact (HP (S k) c d).
Qed.

Section Picture.
Variables (n : nat) (lij : list site) (ldir : list nat) (e : site).
Hypothesis HF : found n lij ldir e.
Hypothesis Hn : (0 < n)%nat.
Lemma lij_nonempty : lij <> [].
Proof. destruct HF as [_ [_ [L _]]]. destruct lij; [cbn in L; lia|discriminate]. Qed.
Lemma dir_lt d : In d ldir -> (d < 4)%nat.
Proof.
  intro H. destruct HF as [[CL C] [_ [L [L' _]]]]. apply In_nth_error in H. destruct H as [k Hk].
  assert (K : (k < length ldir)%nat) by (apply nth_error_Some; congruence).
  destruct (nth_error (lij ++ [e]) k) as [a|] eqn:Ea; [|apply nth_error_None in Ea; lia].
  destruct (C k a d Ea Hk) as [s [E _]]. assert (Q : (d < length lDirectionIncr)%nat) by (apply nth_error_Some; congruence). exact Q.
Qed.
(** the direction of a cell and what it leads to *)
Lemma dir_at k a : nth_error lij k = Some a -> exists d s, nth_error ldir k = Some d /\ (d < 4)%nat /\
  nth_error lDirectionIncr d = Some s /\ nth_error (lij ++ [e]) (S k) = Some (add a s).
Proof.
  intro Ha. destruct HF as [[CL C] [_ [L [L' _]]]].
  assert (K : (k < length lij)%nat) by (apply nth_error_Some; congruence).
  destruct (nth_error ldir k) as [d|] eqn:Ed; [|apply nth_error_None in Ed; lia].
  destruct (C k a d ltac:(rewrite nth_error_app1 by exact K; exact Ha) Ed) as [s [E N]].
  exists d, s. split; [reflexivity|]. split; [apply dir_lt; eapply nth_error_In; exact Ed|]. auto.
Qed.
Lemma lij_NoDup : NoDup lij /\ ~ In e lij.
Proof.
  destruct HF as [_ [D _]]. apply (Permutation_NoDup (Permutation_sym (Permutation_cons_append lij e))) in D.
  inversion D; subst. auto.
Qed.

Lemma draw_ok : exists imin jmin x y, draw lij ldir = Ok (x, y) /\ shows n x y (map (pos imin jmin) lij) /\
  (forall a, In a lij -> imin <= fst a /\ jmin <= snd a) /\
  (exists imax jmax, (forall a, In a lij -> fst a <= imax /\ snd a <= jmax) /\ In imin (map fst lij) /\ In imax (map fst lij) /\
     In jmin (map snd lij) /\ In jmax (map snd lij) /\ Z.of_nat (a_h x) = imax - imin + 3 /\ Z.of_nat (a_w x) = jmax - jmin + 3).
Proof.
  assert (NE : forall A (f : site -> A), map f lij <> []).
  { intros A f. pose proof lij_nonempty. destruct lij; [congruence|discriminate]. }
  destruct lij_NoDup as [ND NEe].
  assert (LEN : length lij = n /\ length ldir = n) by (destruct HF as [_ [_ [L [L' _]]]]; auto). destruct LEN as [LEN LEN'].
  unfold draw. destruct (zmin_ok (map fst lij) (NE _ _)) as [imin [E1 [I1 B1]]]. destruct (zmin_ok (map snd lij) (NE _ _)) as [jmin [E2 [I2 B2]]].
  destruct (zmax_ok (map fst lij) (NE _ _)) as [imax [E3 [I3 B3]]]. destruct (zmax_ok (map snd lij) (NE _ _)) as [jmax [E4 [I4 B4]]].
  rewrite E1, E2, E3, E4. cbn [bind].
  assert (BB : forall a, In a lij -> imin <= fst a <= imax /\ jmin <= snd a <= jmax).
  { intros a Ha. pose proof (B1 _ (in_map fst _ _ Ha)). pose proof (B2 _ (in_map snd _ _ Ha)).
    pose proof (B3 _ (in_map fst _ _ Ha)). pose proof (B4 _ (in_map snd _ _ Ha)). lia. }
  assert (B13 : imin <= imax) by (apply B3; exact I1). assert (B24 : jmin <= jmax) by (apply B4; exact I2).
  set (h := Z.to_nat (imax - imin + 3)). set (w := Z.to_nat (jmax - jmin + 3)).
  assert (MF : map fst (combine lij ldir) = lij).
  { clear - LEN LEN'. revert ldir n LEN LEN'. induction lij as [|a l IH]; intros [|d r] m L L'; cbn in *; try congruence.
    destruct m; [lia|]. f_equal. apply (IH r m); lia. }
  destruct (put_all_spec imin jmin h w (combine lij ldir) 0 (fun _ _ => (0%nat, [0; 0; 255]%nat))) as [f [Ef [K1 K2]]].
  { intros [a d] Hp. assert (Ha := in_combine_l _ _ _ _ Hp). assert (Hd := in_combine_r _ _ _ _ Hp). cbn [fst snd].
    specialize (BB a Ha). split; [unfold h; lia|]. split; [unfold w; lia|]. apply dir_lt, Hd. }
  { assert (Q : NoDup (map fst (combine lij ldir))) by (rewrite MF; exact ND). exact Q. }
  rewrite Ef. cbn [bind]. exists imin, jmin. do 2 eexists. split; [reflexivity|].
  set (x := atab h w 3 _). set (y := ltab h w _). set (l := map (pos imin jmin) lij).
  assert (ML : map (fun p => pos imin jmin (fst p)) (combine lij ldir) = l) by (rewrite <- (map_map fst), MF; reflexivity).
  rewrite ML in K2.
  (* positions *)
  assert (PB : forall a, In a lij -> (1 <= fst (pos imin jmin a) /\ fst (pos imin jmin a) + 2 <= h /\ 1 <= snd (pos imin jmin a) /\ snd (pos imin jmin a) + 2 <= w)%nat).
  { intros a Ha. specialize (BB a Ha). unfold pos, h, w. cbn [fst snd]. lia. }
  assert (LB : forall i j, In (i, j) l -> (1 <= i /\ i + 2 <= h /\ 1 <= j /\ j + 2 <= w)%nat).
  { intros i j Hl. apply in_map_iff in Hl. destruct Hl as [a [Ea Ha]]. specialize (PB a Ha). rewrite Ea in PB. exact PB. }
  assert (PI : forall a b, imin - 1 <= fst a -> jmin - 1 <= snd a -> In b lij -> pos imin jmin a = pos imin jmin b -> a = b).
  { intros a b A1 A2 Hb E. specialize (BB b Hb). apply (pos_inj imin jmin); [lia..|exact E]. }
  assert (NDl : NoDup l).
  { apply NoDup_map_in; [|exact ND]. intros a b Ha Hb E. specialize (BB a Ha). apply PI; [lia|lia|exact Hb|exact E]. }
  (* pixels *)
  assert (AT : forall k a d, nth_error lij k = Some a -> nth_error ldir k = Some d ->
    f (fst (pos imin jmin a)) (snd (pos imin jmin a)) = ((S k mod 256)%nat, nth d lDirectionColor [])).
  { intros k a d Ha Hd. rewrite (K1 k a d); [reflexivity|]. apply nth_error_combine; assumption. }
  assert (PX : forall i j, (i < h)%nat -> (j < w)%nat ->
    (exists k a d, nth_error lij k = Some a /\ nth_error ldir k = Some d /\ (d < 4)%nat /\ (i, j) = pos imin jmin a /\
       snd (f i j) = nth d lDirectionColor []) \/ (~ In (i, j) l /\ snd (f i j) = [0; 0; 255]%nat)).
  { intros i j Hi Hj. destruct (in_dec (fun a b : nat * nat => ltac:(decide equality; apply Nat.eq_dec)) (i, j) l) as [H|H].
    - left. apply in_map_iff in H. destruct H as [a [Ea Ha]]. apply In_nth_error in Ha. destruct Ha as [k Hk].
      destruct (dir_at k a Hk) as [d [s [Ed [Hd _]]]]. exists k, a, d. split; [exact Hk|]. split; [exact Ed|]. split; [exact Hd|].
      split; [auto|]. pose proof (AT k a d Hk Ed) as Q. rewrite Ea in Q. cbn [fst snd] in Q. rewrite Q. reflexivity.
    - right. split; [exact H|]. rewrite (K2 i j H). reflexivity. }
  assert (XG : forall i j c, (i < h)%nat -> (j < w)%nat -> (c < 3)%nat -> aget x i j c = ofN (nth c (snd (f i j)) 0%nat)).
  { intros i j c Hi Hj Hc. unfold x. rewrite Snakes.aget_atab by assumption. reflexivity. }
  assert (PURE : pure_colours x).
  { intros i j c Hi Hj Hc. rewrite XG by assumption.
    assert (V : nth c (snd (f i j)) 0%nat = 0%nat \/ nth c (snd (f i j)) 0%nat = 255%nat).
    { destruct (PX i j Hi Hj) as [[k [a [d [_ [_ [Hd [_ Q]]]]]]]|[_ Q]]; rewrite Q; clear - Hd Hc || clear - Hc.
      - do 4 (destruct d as [|d]; [do 3 (destruct c as [|c]; [cbn; auto|]); lia|]). lia.
      - do 3 (destruct c as [|c]; [cbn; auto|]); lia. }
    destruct V as [-> | ->]; [left; apply Qc_is_canon; reflexivity|right; reflexivity]. }
  assert (HW : (0 < h * w)%nat) by (apply Nat.mul_pos_pos; unfold h, w; lia).
  destruct (one_hot_pure x PURE eq_refl HW) as [hot [EH [Hh [Hw [Hc HG]]]]].
  change (a_h x) with h in *. change (a_w x) with w in *.
  assert (HG' : forall i j, (i < h)%nat -> (j < w)%nat ->
    (exists k a d, nth_error lij k = Some a /\ nth_error ldir k = Some d /\ (d < 4)%nat /\ (i, j) = pos imin jmin a /\
       forall c, (c < 5)%nat -> aget hot i j c = ind (channel d =? c)%nat) \/
    (~ In (i, j) l /\ forall c, (c < 5)%nat -> aget hot i j c = ind (3 =? c)%nat)).
  { intros i j Hi Hj. destruct (PX i j Hi Hj) as [[k [a [d [A [B [D [P Q]]]]]]]|[N Q]]; [left; exists k, a, d|right].
    - do 4 (split; [assumption|]). intros c C. rewrite HG by assumption. f_equal. unfold lit. rewrite !XG by (assumption || lia). rewrite Q.
      clear - D C. do 4 (destruct d as [|d]; [do 5 (destruct c as [|c]; [vm_compute; reflexivity|]); lia|]). lia.
    - split; [exact N|]. intros c C. rewrite HG by assumption. f_equal. unfold lit. rewrite !XG by (assumption || lia). rewrite Q.
      clear - C. do 5 (destruct c as [|c]; [vm_compute; reflexivity|]); lia. }
  assert (CH : forall d, (d < 4)%nat -> (channel d < 5)%nat /\ channel d <> 3%nat).
  { clear. intros d Hd. do 4 (destruct d as [|d]; [cbn; lia|]). lia. }
  assert (ONE : one_hot_picture hot).
  { split; [exact Hc|]. rewrite Hh, Hw. intros i j Hi Hj.
    destruct (HG' i j Hi Hj) as [[k [a [d [_ [_ [D [_ Q]]]]]]]|[_ Q]]; [exists (channel d)|exists 3%nat].
    - destruct (CH d D) as [C5 _]. split; [exact C5|]. split; [rewrite Q, Nat.eqb_refl by exact C5; reflexivity|].
      intros c' C' N. rewrite Q, ind_one, Nat.eqb_eq by exact C'. congruence.
    - split; [lia|]. split; [rewrite Q by lia; reflexivity|]. intros c' C' N. rewrite Q, ind_one, Nat.eqb_eq by exact C'. congruence. }
  assert (COL : forall a, coloured hot a <-> In a l).
  { intros [i j]. unfold coloured. cbn [fst snd]. rewrite Hh, Hw. split.
    - intros [Hi [Hj N]]. destruct (HG' i j Hi Hj) as [[k [a [d [A [_ [_ [P _]]]]]]]|[_ Q]].
      + rewrite P. apply in_map. eapply nth_error_In. exact A.
      + exfalso. apply N. rewrite Q by lia. reflexivity.
    - intro Hl. destruct (LB i j Hl) as [L1 [L2 [L3 L4]]]. split; [lia|]. split; [lia|].
      destruct (HG' i j ltac:(lia) ltac:(lia)) as [[k [a [d [_ [_ [D [_ Q]]]]]]]|[N _]]; [|contradiction].
      rewrite Q, ind_one, Nat.eqb_eq by lia. apply CH, D. }
  assert (FR : framed hot).
  { intros i j. rewrite Hh, Hw. intros Hi Hj B. destruct (HG' i j Hi Hj) as [[k [a [d [A [_ [_ [P _]]]]]]]|[_ Q]]; [|rewrite Q by lia; reflexivity].
    exfalso. assert (Hl : In (i, j) l) by (rewrite P; apply in_map; eapply nth_error_In; exact A). destruct (LB i j Hl). lia. }
  assert (PT : forall k a b, nth_error lij k = Some a -> nth_error (lij ++ [e]) (S k) = Some b ->
    points hot (pos imin jmin a) (pos imin jmin b) /\ imin - 1 <= fst b <= imax + 1 /\ jmin - 1 <= snd b <= jmax + 1).
  { intros k a b Ha Hb. destruct (dir_at k a Ha) as [d [s [Ed [D [Es N]]]]]. rewrite N in Hb. injection Hb as <-.
    assert (Ia := nth_error_In _ _ Ha). assert (Ba := BB a Ia). destruct (PB a Ia) as [P1 [P2 [P3 P4]]].
    split; [|apply incr_one in Es; unfold add; cbn [fst snd]; lia].
    assert (Q : aget hot (fst (pos imin jmin a)) (snd (pos imin jmin a)) (channel d) = 1%Qc).
    { destruct (HG' (fst (pos imin jmin a)) (snd (pos imin jmin a)) ltac:(lia) ltac:(lia)) as [[k' [a' [d' [A' [B' [_ [P' Q']]]]]]]|[N' _]].
      - rewrite <- surjective_pairing in P'. apply PI in P'; [|lia|lia|eapply nth_error_In; exact A']. subst a'.
        assert (k' = k) by (eapply (proj1 (NoDup_nth_error lij)); [exact ND|apply nth_error_Some; congruence|congruence]). subst k'.
        rewrite Ed in B'. injection B' as <-. rewrite Q' by (apply CH, D). rewrite Nat.eqb_refl. reflexivity.
      - exfalso. apply N'. rewrite <- surjective_pairing. apply in_map, Ia. }
    clear - Q P1 P2 P3 P4 D Es Ba. destruct a as [i j]. unfold pos, add in *. cbn [fst snd] in *.
    destruct d as [|[|[|[|d]]]]; [| | | |lia]; injection Es as <-; cbn [fst snd channel nth] in *.
    - replace (Z.to_nat (i - imin + 1)) with (S (Z.to_nat (i + -1 - imin + 1))) in * by lia. rewrite Z.add_0_r. apply points_up. exact Q.
    - replace (Z.to_nat (j + 1 - jmin + 1)) with (S (Z.to_nat (j - jmin + 1))) by lia. rewrite Z.add_0_r. apply points_right. exact Q.
    - replace (Z.to_nat (i + 1 - imin + 1)) with (S (Z.to_nat (i - imin + 1))) by lia. rewrite Z.add_0_r. apply points_down. exact Q.
    - replace (Z.to_nat (j - jmin + 1)) with (S (Z.to_nat (j + -1 - jmin + 1))) in * by lia. rewrite Z.add_0_r. apply points_left. exact Q. }
  split; [|split; [intros a Ha; specialize (BB a Ha); lia|]].
  2:{ exists imax, jmax. split; [intros a Ha; specialize (BB a Ha); lia|]. do 4 (split; [assumption|]).
      change (a_h x) with h. change (a_w x) with w. unfold h, w. lia. }
  assert (NEl : l <> []) by apply NE.
  split; [exact PURE|]. split; [reflexivity|]. split; [reflexivity|]. split; [reflexivity|].
  split; [unfold l; rewrite map_length; exact LEN|]. split; [exact NDl|]. split; [|split; [|split]].
  - exists hot. split; [exact EH|]. split; [exact ONE|]. split; [exact FR|]. split; [|split; [exact Hh|split; [exact Hw|split; [exact COL|]]]].
    + apply arrows_build; [exact NEl|intros a; apply COL|]. intros k a b Ha Hb. unfold l in Ha, Hb.
      rewrite nth_error_map in Ha, Hb. destruct (nth_error lij k) as [a'|] eqn:Ea; [|discriminate Ha].
      destruct (nth_error lij (S k)) as [b'|] eqn:Eb; [|discriminate Hb]. cbn in Ha, Hb. injection Ha as <-. injection Hb as <-.
      apply (PT k a' b' Ea). rewrite nth_error_app1; [exact Eb|]. apply nth_error_Some. congruence.
    + assert (EL : exists a, nth_error lij (n - 1) = Some a).
      { destruct (nth_error lij (n - 1)) as [a|] eqn:E; [eauto|]. apply nth_error_None in E. lia. }
      destruct EL as [a Ea].
      assert (EN : nth_error (lij ++ [e]) (S (n - 1)) = Some e).
      { rewrite nth_error_app2 by lia. replace (S (n - 1) - length lij)%nat with 0%nat by lia. reflexivity. }
      destruct (PT (n - 1)%nat a e Ea EN) as [P1 [P2 P3]]. exists (pos imin jmin e).
      assert (LA : last l (0, 0)%nat = pos imin jmin a).
      { assert (NL : nth_error l (n - 1) = Some (pos imin jmin a)) by (unfold l; rewrite nth_error_map, Ea; reflexivity).
        assert (LL : length l = n) by (unfold l; rewrite map_length; exact LEN).
        destruct (exists_last NEl) as [l' [z El]]. rewrite El in *. rewrite last_last. rewrite app_length in LL. cbn [length] in LL.
        rewrite nth_error_app2 in NL by lia. replace (n - 1 - length l')%nat with 0%nat in NL by lia. injection NL as ->. reflexivity. }
      rewrite LA. split; [exact P1|]. split; [unfold pos; cbn [fst snd]; change (a_h x) with h; unfold h; lia|].
      split; [unfold pos; cbn [fst snd]; change (a_w x) with w; unfold w; lia|].
      rewrite COL. intro K. apply in_map_iff in K. destruct K as [b [Eb Hb]]. symmetry in Eb. apply PI in Eb; [|lia|lia|exact Hb].
      subst b. exact (NEe Hb).
  - apply in_map_iff in I1, I2, I3, I4. destruct I1 as [a1 [<- I1]]. destruct I2 as [a2 [<- I2]]. destruct I3 as [a3 [<- I3]]. destruct I4 as [a4 [<- I4]].
    exists (pos (fst a1) (snd a2) a1), (pos (fst a1) (snd a2) a3), (pos (fst a1) (snd a2) a2), (pos (fst a1) (snd a2) a4).
    split; [apply in_map, I1|]. split; [apply in_map, I3|]. split; [apply in_map, I2|]. split; [apply in_map, I4|].
    change (a_h x) with h. change (a_w x) with w. unfold pos, h, w. cbn [fst snd]. lia.
  - intros k b Hk. unfold l in Hk. rewrite nth_error_map in Hk. destruct (nth_error lij k) as [a|] eqn:Ea; [|discriminate Hk].
    cbn in Hk. injection Hk as <-. destruct (dir_at k a Ea) as [d [s [Ed _]]]. destruct (PB a (nth_error_In _ _ Ea)) as [P1 [P2 [P3 P4]]].
    unfold y. rewrite lget_ltab by lia. rewrite (AT k a d Ea Ed). reflexivity.
  - intros i j Hi Hj N. unfold y. rewrite lget_ltab by assumption. rewrite (K2 i j N). reflexivity.
Qed.
End Picture.
