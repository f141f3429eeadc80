(** Proofs about genSnakes: the generated list. *)
From Coq Require Import ZArith Lia Permutation.
From Verif Require Import Spec.GenSnakesSpec Proofs.Arrays Proofs.Snakes Proofs.HiddenSnakes Proofs.HiddenSnakes2 Proofs.GenSnakes Proofs.GenSnakes2.
Local Open Scope Z_scope.

Lemma same_key_spec a : forall b, same_key a b = true <-> a = b.
Proof.
  unfold same_key. induction a as [|[i j] a IH]; intros [|[i' j'] b]; cbn [length Nat.eqb andb combine forallb fst snd]; try (split; [discriminate|discriminate]).
  - split; reflexivity.
  - specialize (IH b). split.
    + intro H. apply andb_true_iff in H. destruct H as [H1 H2]. apply andb_true_iff in H2. destruct H2 as [H2 H3].
      unfold same_cell in H2. cbn [fst snd] in H2. apply andb_true_iff in H2. destruct H2 as [H2 H4]. apply Z.eqb_eq in H2, H4.
      f_equal; [congruence|]. apply IH. rewrite H1, H3. reflexivity.
    + intro E. injection E as -> -> ->. destruct IH as [_ IH]. specialize (IH eq_refl). apply andb_true_iff in IH. destruct IH as [-> ->].
      unfold same_cell. cbn [fst snd]. rewrite !Z.eqb_refl. reflexivity.
Qed.
Lemma used_spec key used : existsb (same_key key) used = true <-> In key used.
Proof.
  rewrite existsb_exists. split.
  - intros [b [H E]]. apply same_key_spec in E. subst. exact H.
  - intro H. exists key. split; [exact H|apply same_key_spec; reflexivity].
Qed.

(** ** the size of the picture *)
Fixpoint tv (f : nat -> Z) (k : nat) : Z := match k with O => 0 | S k => tv f k + Z.abs (f (S k) - f k) end.
Lemma tv_dist f a : forall b, (a <= b)%nat -> Z.abs (f b - f a) <= tv f b - tv f a /\ 0 <= tv f a.
Proof.
  assert (P : forall k, 0 <= tv f k) by (induction k; cbn [tv]; lia).
  induction b as [|b IH]; intro H; [replace a with 0%nat by lia; cbn; lia|]. specialize (P a).
  destruct (Nat.eq_dec a (S b)) as [->|N]; [lia|]. specialize (IH ltac:(lia)). cbn [tv]. lia.
Qed.
Lemma chain_tv (L : list site) dirs : chain L dirs -> forall k, (k <= length dirs)%nat ->
  tv (fun t => fst (nth t L (0, 0))) k + tv (fun t => snd (nth t L (0, 0))) k = Z.of_nat k.
Proof.
  intros [HL HC]. induction k as [|k IH]; intro Hk; [reflexivity|]. specialize (IH ltac:(lia)). cbn [tv].
  destruct (nth_error L k) as [a|] eqn:Ea; [|apply nth_error_None in Ea; lia].
  destruct (nth_error dirs k) as [d|] eqn:Ed; [|apply nth_error_None in Ed; lia].
  destruct (HC k a d Ea Ed) as [s [Es En]]. apply incr_one in Es.
  assert (Na : nth k L (0, 0) = a) by exact (nth_error_nth _ _ (0, 0) Ea).
  assert (Nn : nth (S k) L (0, 0) = add a s) by exact (nth_error_nth _ _ (0, 0) En).
  set (u := nth k L (0, 0)) in *. set (v := nth (S k) L (0, 0)) in *. clearbody u v. subst u v. unfold add. cbn [fst snd]. lia.
Qed.
Lemma extent n lij ldir e : found n lij ldir e -> forall a b c d, In a lij -> In b lij -> In c lij -> In d lij ->
  fst b - fst a + (snd d - snd c) + 1 <= Z.of_nat n.
Proof.
  intros [HC [_ [HL [HL' _]]]] a b c d Ha Hb Hc Hd.
  apply In_nth_error in Ha, Hb, Hc, Hd. destruct Ha as [ka Ha]. destruct Hb as [kb Hb]. destruct Hc as [kc Hc]. destruct Hd as [kd Hd].
  set (L := (lij ++ [e])%list).
  assert (N : forall k a, nth_error lij k = Some a -> (k <= n - 1)%nat /\ (1 <= n)%nat /\ nth k L (0, 0) = a).
  { intros k z Hk. assert (K : (k < length lij)%nat) by (apply nth_error_Some; congruence). split; [lia|]. split; [lia|].
    apply nth_error_nth. unfold L. rewrite nth_error_app1 by exact K. exact Hk. }
  apply N in Ha, Hb, Hc, Hd. destruct Ha as [Ka [Kn Ea]]. destruct Hb as [Kb [_ Eb]]. destruct Hc as [Kc [_ Ec]]. destruct Hd as [Kd [_ Ed]].
  assert (T := chain_tv L ldir HC (n - 1)%nat ltac:(lia)).
  set (f := fun t => fst (nth t L (0, 0))) in *. set (g := fun t => snd (nth t L (0, 0))) in *.
  assert (F : fst b - fst a <= tv f (n - 1)).
  { rewrite <- Ea, <- Eb. change (f kb - f ka <= tv f (n - 1)).
    pose proof (tv_dist f kb (n - 1) ltac:(lia)). pose proof (tv_dist f ka (n - 1) ltac:(lia)).
    destruct (Nat.le_ge_cases ka kb) as [Q|Q].
    - pose proof (tv_dist f ka kb Q). lia.
    - pose proof (tv_dist f kb ka Q). lia. }
  assert (G : snd d - snd c <= tv g (n - 1)).
  { rewrite <- Ec, <- Ed. change (g kd - g kc <= tv g (n - 1)).
    pose proof (tv_dist g kd (n - 1) ltac:(lia)). pose proof (tv_dist g kc (n - 1) ltac:(lia)).
    destruct (Nat.le_ge_cases kc kd) as [Q|Q].
    - pose proof (tv_dist g kc kd Q). lia.
    - pose proof (tv_dist g kd kc Q). lia. }
  lia.
Qed.

(** ** one round *)
Definition made (n : nat) (key : list site) (xy : arr3 * lab2) : Prop :=
  exists ldir e imin jmin, found n key ldir e /\ shows n (fst xy) (snd xy) (map (pos imin jmin) key) /\
    (forall a, In a key -> imin <= fst a /\ jmin <= snd a) /\
    (a_h (fst xy) + a_w (fst xy) <= n + 5)%nat.
Lemma made_ok n lij ldir e : found n lij ldir e -> (0 < n)%nat -> exists xy, draw lij ldir = Ok xy /\ made n lij xy.
Proof.
  intros HF Hn. destruct (draw_ok n lij ldir e HF Hn) as [imin [jmin [x [y [E [S [B [imax [jmax [B' [I1 [I2 [I3 [I4 [EH EW]]]]]]]]]]]]]]].
  exists (x, y). split; [exact E|]. exists ldir, e, imin, jmin. cbn [fst snd]. split; [exact HF|]. split; [exact S|]. split; [exact B|].
  apply in_map_iff in I1, I2, I3, I4. destruct I1 as [a1 [<- I1]]. destruct I2 as [a2 [<- I2]]. destruct I3 as [a3 [<- I3]]. destruct I4 as [a4 [<- I4]].
  pose proof (extent n lij ldir e HF a1 a2 a3 a4 I1 I2 I3 I4). lia.
Qed.
Lemma attempt_spec shuffle n used k dirs : shuffles shuffle -> (0 < n)%nat -> Permutation [0; 1; 2; 3]%nat dirs ->
  exists o k' dirs', attempt shuffle n used k dirs = Ok (o, k', dirs') /\ Permutation [0; 1; 2; 3]%nat dirs' /\
    match o with None => True | Some (key, xy) => ~ In key used /\ made n key xy end.
Proof.
  intros HS Hn HP. unfold attempt. destruct (grow_start n shuffle HS k dirs HP) as [o [k' [dirs' [G [P K]]]]]. rewrite G. cbn [bind].
  destruct o as [[lij ldir]|]; [|exists None, k', dirs'; auto]. destruct K as [e HF].
  destruct (existsb (same_key lij) used) eqn:E; [exists None, k', dirs'; auto|].
  destruct (made_ok n lij ldir e HF Hn) as [xy [Ed M]]. rewrite Ed. cbn [bind]. exists (Some (lij, xy)), k', dirs'.
  split; [reflexivity|]. split; [exact P|]. split; [|exact M]. intro K. apply used_spec in K. congruence.
Qed.
Lemma one_snake_spec shuffle n used : shuffles shuffle -> (0 < n)%nat -> forall fuel k dirs, Permutation [0; 1; 2; 3]%nat dirs ->
  match one_snake shuffle fuel n used k dirs with
  | None => True
  | Some (Err _) => False
  | Some (Ok (key, xy, k', dirs')) => ~ In key used /\ made n key xy /\ Permutation [0; 1; 2; 3]%nat dirs'
  end.
Proof.
  intros HS Hn. induction fuel as [|fuel IH]; intros k dirs HP; cbn [one_snake]; [exact I|].
  destruct (attempt_spec shuffle n used k dirs HS Hn HP) as [o [k' [dirs' [E [P K]]]]]. rewrite E.
  destruct o as [[key xy]|]; [|apply IH, P]. destruct K. auto.
Qed.
Lemma gen_loop_spec shuffle n fuel : shuffles shuffle -> (0 < n)%nat -> forall N used k dirs out, Permutation [0; 1; 2; 3]%nat dirs ->
  match gen_loop shuffle fuel N n used k dirs out with
  | None => True
  | Some (Err _) => False
  | Some (Ok (out', used')) => exists keys new, out' = (out ++ new)%list /\ used' = (used ++ keys)%list /\ length keys = N /\
      Forall2 (made n) keys new /\ NoDup keys /\ (forall key, In key keys -> ~ In key used)
  end.
Proof.
  intros HS Hn. induction N as [|N IH]; intros used k dirs out HP; cbn [gen_loop].
  - exists [], []. rewrite !app_nil_r. repeat split; [constructor|constructor|intros ? []].
  - pose proof (one_snake_spec shuffle n used HS Hn fuel k dirs HP) as Q.
    destruct (one_snake shuffle fuel n used k dirs) as [[[[[key xy] k'] dirs']|]|]; [|exact Q|exact I].
    destruct Q as [Q1 [Q2 Q3]]. specialize (IH (used ++ [key])%list k' dirs' (out ++ [xy])%list Q3).
    destruct (gen_loop shuffle fuel N n (used ++ [key]) k' dirs' (out ++ [xy])) as [[[out' used']|]|]; [|exact IH|exact I].
    destruct IH as [keys [new [-> [-> [L [F [D U]]]]]]]. exists (key :: keys), (xy :: new).
    rewrite <- !app_assoc. cbn [app length]. split; [reflexivity|]. split; [reflexivity|]. split; [lia|].
    split; [constructor; assumption|]. split.
    + constructor; [|exact D]. intro K. apply (U key K), in_or_app. right. left. reflexivity.
    + intros key' [<-|K]; [exact Q1|]. intro K'. apply (U key' K), in_or_app. left. exact K'.
Qed.
Lemma gen_spec shuffle n fuel N used : shuffles shuffle -> (0 < n)%nat ->
  match genSnakes shuffle fuel N used n with
  | None => True
  | Some (Err _) => False
  | Some (Ok (out', used')) => exists keys, used' = (used ++ keys)%list /\ length keys = N /\
      Forall2 (made n) keys out' /\ NoDup keys /\ (forall key, In key keys -> ~ In key used)
  end.
Proof.
  intros HS Hn. unfold genSnakes. pose proof (gen_loop_spec shuffle n fuel HS Hn N used 0 [0; 1; 2; 3]%nat [] (Permutation_refl _)) as Q.
  destruct (gen_loop shuffle fuel N n used 0 [0; 1; 2; 3]%nat []) as [[[out used']|]|]; [|exact Q|exact I].
  destruct Q as [keys [new [-> Q]]]. exists keys. exact Q.
Qed.

(** ** a picture determines its snake *)
Section Same.
Variable p : arr3.
Hypothesis HO : one_hot_picture p.
Hypothesis HF : framed p.
Lemma has_pred b r : forall a, arrows p (a :: r) -> In b r -> exists q, In q (a :: r) /\ points p q b.
Proof.
  induction r as [|c r IH]; intros a A K; [destruct K|destruct K as [->|K]].
  - exists a. split; [left; reflexivity|]. exact (proj1 (arrows_next p _ _ _ A)).
  - destruct (IH c (proj2 (arrows_next p _ _ _ A)) K) as [q [Hq P]]. exists q. split; [right; exact Hq|exact P].
Qed.
Lemma has_succ q r : forall a z, arrows p (a :: r) -> In q (a :: r) -> q = last (a :: r) z \/ exists s, points p q s /\ In s r.
Proof.
  induction r as [|c r IH]; intros a z A [->|K].
  - left. reflexivity.
  - destruct K.
  - right. exists c. split; [exact (proj1 (arrows_next p _ _ _ A))|left; reflexivity].
  - destruct (IH c z (proj2 (arrows_next p _ _ _ A)) K) as [E|[s [P Hs]]]; [left; exact E|right; exists s; split; [exact P|right; exact Hs]].
Qed.
Lemma same_from r : forall r' a, arrows p (a :: r) -> arrows p (a :: r') -> length r = length r' -> r = r'.
Proof.
  induction r as [|b r IH]; intros [|b' r'] a A A' L; try discriminate L; [reflexivity|].
  destruct (arrows_next p _ _ _ A) as [P R]. destruct (arrows_next p _ _ _ A') as [P' R'].
  assert (b = b') by (apply (points_fun p HO a); [exact (arrows_head p _ _ A)|exact P|exact P']). subst b'.
  f_equal. apply (IH r' b R R'). cbn in L. lia.
Qed.
Lemma same_chain l l' z : l <> [] -> arrows p l -> arrows p l' -> NoDup l' -> length l = length l' ->
  (forall a, coloured p a <-> In a l) -> (forall a, coloured p a <-> In a l') ->
  (exists b, points p (last l' z) b /\ ~ coloured p b) -> l = l'.
Proof.
  intros NE A A' D L C C' [b [Pb Nb]]. destruct l as [|a r]; [congruence|]. destruct l' as [|a' r']; [discriminate L|].
  assert (a = a').
  { assert (Ca : coloured p a') by (apply C'; left; reflexivity). assert (Ha : In a' (a :: r)) by (apply C, Ca).
    destruct Ha as [Ha|Ha]; [exact Ha|]. exfalso. destruct (has_pred a' r a A Ha) as [q [Hq Pq]].
    assert (Cq : coloured p q) by (apply C, Hq). assert (Hq' : In q (a' :: r')) by (apply C', Cq).
    destruct (has_succ q r' a' z A' Hq') as [E|[s [Ps Hs]]].
    - rewrite <- E in Pb. apply Nb. rewrite (points_fun p HO q b a' Cq Pb Pq). exact Ca.
    - rewrite (points_fun p HO q s a' Cq Ps Pq) in Hs. inversion D; contradiction. }
  subst a'. f_equal. apply (same_from r r' a A A'). cbn in L. lia.
Qed.
End Same.
Lemma arrows_transfer p q l : a_h q = a_h p -> a_w q = a_w p ->
  (forall i j c, (i < a_h p)%nat -> (j < a_w p)%nat -> (c < 5)%nat -> aget q i j c = aget p i j c) -> arrows p l -> arrows q l.
Proof.
  intros Eh Ew E. assert (C : forall a, coloured p a -> coloured q a).
  { intros a [Hi [Hj N]]. unfold coloured. rewrite Eh, Ew, E by (assumption || lia). auto. }
  assert (P : forall a b, coloured p a -> points p a b -> points q a b).
  { intros a b [Hi [Hj _]] K. destruct K as [i j K|i j K|i j K|i j K]; cbn [fst snd] in Hi, Hj; constructor; rewrite E by (assumption || lia); exact K. }
  intro A. induction A as [a Ha|a b l Ha Hab A IH]; constructor; auto.
Qed.
Lemma points_transfer p q a b : (fst a < a_h p)%nat -> (snd a < a_w p)%nat ->
  (forall i j c, (i < a_h p)%nat -> (j < a_w p)%nat -> (c < 5)%nat -> aget q i j c = aget p i j c) -> points p a b -> points q a b.
Proof.
  intros Hi Hj E K. destruct K as [i j K|i j K|i j K|i j K]; cbn [fst snd] in Hi, Hj; constructor; rewrite E by (assumption || lia); exact K.
Qed.
Lemma shows_same n x y l x' y' l' : (0 < n)%nat -> shows n x y l -> shows n x' y' l' -> same_picture x x' -> l = l'.
Proof.
  intros Hn [PC [H3 [_ [_ [L [D [[hot [EH [O [F [A [Hh [Hw [C K]]]]]]]] _]]]]]]].
  intros [PC' [H3' [_ [_ [L' [D' [[hot' [EH' [O' [F' [A' [Hh' [Hw' [C' K']]]]]]]] _]]]]]]] [Eh [Ew [_ E]]].
  assert (NE : l <> []) by (destruct l; [cbn in L; lia|discriminate]).
  assert (NE' : l' <> []) by (destruct l'; [cbn in L'; lia|discriminate]).
  assert (HW : (0 < a_h x * a_w x)%nat).
  { destruct l as [|a r]; [congruence|]. destruct (proj2 (C a) (or_introl eq_refl)) as [P1 [P2 _]]. rewrite Hh in P1. rewrite Hw in P2.
    apply Nat.mul_pos_pos; lia. }
  destruct (one_hot_pure x PC H3 HW) as [h1 [E1 [_ [_ [_ G1]]]]]. rewrite EH in E1. apply Ok_inj in E1. subst h1.
  destruct (one_hot_pure x' PC' H3' ltac:(rewrite Eh, Ew; exact HW)) as [h2 [E2 [_ [_ [_ G2]]]]]. rewrite EH' in E2. apply Ok_inj in E2. subst h2.
  assert (G : forall i j c, (i < a_h hot')%nat -> (j < a_w hot')%nat -> (c < 5)%nat -> aget hot i j c = aget hot' i j c).
  { rewrite Hh', Hw', Eh, Ew. intros i j c Hi Hj Hc. rewrite G1, G2 by (assumption || lia). unfold lit.
    rewrite !E by (assumption || lia). reflexivity. }
  assert (CC : forall a, coloured hot a <-> coloured hot' a).
  { intros [i j]. unfold coloured. cbn [fst snd]. rewrite Hh, Hw, Hh', Hw', Eh, Ew.
    split; intros [Hi [Hj N]]; (split; [exact Hi|]; split; [exact Hj|]); intro Q; apply N; rewrite <- Q;
      [apply G|symmetry; apply G]; rewrite ?Hh', ?Hw', ?Eh, ?Ew; (assumption || lia). }
  apply (same_chain hot O l l' (0, 0)%nat NE A); [|exact D'|lia|exact C| |].
  - apply (arrows_transfer hot' hot); [congruence|congruence|exact G|exact A'].
  - intro a. rewrite CC. apply C'.
  - destruct K' as [b [P [_ [_ N]]]]. exists b. split; [|rewrite CC; exact N].
    assert (Hl : In (last l' (0, 0)%nat) l').
    { destruct (exists_last NE') as [l1 [z ->]]. rewrite last_last. apply in_or_app. right. left. reflexivity. }
    apply C' in Hl. destruct Hl as [H1 [H2 _]]. apply (points_transfer hot' hot); [exact H1|exact H2|exact G|exact P].
Qed.
Lemma made_same n key xy key' xy' : (0 < n)%nat -> made n key xy -> made n key' xy' -> same_picture (fst xy) (fst xy') -> key = key'.
Proof.
  intros Hn [ldir [e [i0 [j0 [F [S [B _]]]]]]] [ldir' [e' [i1 [j1 [F' [S' [B' _]]]]]]] P.
  assert (E := shows_same n _ _ _ _ _ _ Hn S S' P). destruct F as [_ [_ [L [_ H0]]]]. destruct F' as [_ [_ [L' [_ H0']]]].
  destruct key as [|a r]; [cbn in L; lia|]. destruct key' as [|a' r']; [cbn in L'; lia|].
  cbn in H0, H0'. injection H0 as H0. injection H0' as H0'. subst a a'.
  cbn [map] in E. injection E as Ei Ej Er. destruct (B _ (or_introl eq_refl)) as [B1 B2]. destruct (B' _ (or_introl eq_refl)) as [B1' B2'].
  cbn [fst snd] in *. assert (i1 = i0) by lia. assert (j1 = j0) by lia. subst i1 j1. f_equal.
  assert (Q : forall z z', (forall a, In a z -> i0 <= fst a /\ j0 <= snd a) -> (forall a, In a z' -> i0 <= fst a /\ j0 <= snd a) ->
    map (pos i0 j0) z = map (pos i0 j0) z' -> z = z').
  { clear. induction z as [|a z IH]; intros [|a' z'] H H' E; try discriminate E; [reflexivity|].
    assert (E1 : pos i0 j0 a = pos i0 j0 a') by (cbn [map] in E; congruence).
    assert (E2 : map (pos i0 j0) z = map (pos i0 j0) z') by (cbn [map] in E; congruence).
    destruct (H a (or_introl eq_refl)). destruct (H' a' (or_introl eq_refl)).
    f_equal; [apply (pos_inj i0 j0); [lia..|exact E1]|]. apply IH; [intros; apply H; right; assumption|intros; apply H'; right; assumption|exact E2]. }
  apply Q; [intros a Ha; apply B; right; exact Ha|intros a Ha; apply B'; right; exact Ha|exact Er].
Qed.
Lemma made_pairs n keys : (0 < n)%nat -> forall out, Forall2 (made n) keys out -> NoDup keys ->
  ForallOrdPairs (fun a b => ~ same_picture (fst a) (fst b)) out.
Proof.
  intros Hn. induction keys as [|key keys IH]; intros out F D; inversion F as [|? xy ? out' M F']; subst; constructor.
  - inversion D as [|? ? N _]; subst. apply Forall_forall. intros xy' H P.
    apply In_nth_error in H. destruct H as [k Hk].
    assert (G : exists key', In key' keys /\ made n key' xy').
    { clear - F' Hk. revert k Hk. induction F' as [|a b l l' H F IH]; intros [|k] Hk; try discriminate Hk.
      - cbn in Hk. injection Hk as <-. exists a. split; [left; reflexivity|exact H].
      - destruct (IH k Hk) as [key' [I M]]. exists key'. split; [right; exact I|exact M]. }
    destruct G as [key' [I M']]. apply N. rewrite (made_same n key xy key' xy' Hn M M' P). exact I.
  - inversion D; subst. apply IH; assumption.
Qed.

(** ** the number of snakes *)
Fixpoint path (a : site) (dirs : list nat) : list site :=
  match dirs with [] => [a] | d :: dirs => a :: path (add a (nth d lDirectionIncr (0, 0))) dirs end.
Fixpoint all_dirs (k : nat) : list (list nat) :=
  match k with O => [[]] | S k => flat_map (fun d => map (cons d) (all_dirs k)) [0; 1; 2; 3]%nat end.
Lemma all_dirs_length k : length (all_dirs k) = (4 ^ k)%nat.
Proof. induction k as [|k IH]; [reflexivity|]. cbn [all_dirs flat_map]. rewrite !app_length, !map_length, IH. cbn. lia. Qed.
Lemma all_dirs_in dirs : (forall d, In d dirs -> (d < 4)%nat) -> In dirs (all_dirs (length dirs)).
Proof.
  induction dirs as [|d dirs IH]; intro H; [left; reflexivity|]. cbn [length all_dirs]. apply in_flat_map. exists d. split.
  - specialize (H d (or_introl eq_refl)). cbn. lia.
  - apply in_map, IH. intros d' Hd. apply H. right. exact Hd.
Qed.
Lemma chain_path dirs : forall a L, chain (a :: L) dirs -> a :: L = path a dirs.
Proof.
  induction dirs as [|d dirs IH]; intros a L [HL HC]; cbn [path].
  - destruct L; [reflexivity|discriminate HL].
  - destruct (HC 0%nat a d eq_refl eq_refl) as [s [Es En]]. cbn [nth_error] in En. destruct L as [|b L]; [discriminate En|].
    injection En as ->. f_equal. assert (Q : nth d lDirectionIncr (0, 0) = s) by exact (nth_error_nth _ _ (0, 0) Es).
    set (u := nth d lDirectionIncr (0, 0)) in *. clearbody u. subst u. apply IH. split; [cbn in *; lia|].
    intros k. exact (HC (S k)).
Qed.
Lemma key_path n key xy : (0 < n)%nat -> made n key xy -> exists dirs, In dirs (all_dirs (n - 1)) /\
  key = path (1 + Z.of_nat n, 1 + Z.of_nat n) dirs.
Proof.
  intros Hn [ldir [e [_ [_ [F _]]]]]. assert (F2 := F). destruct F as [[CL CC] [_ [L [L' H0]]]].
  exists (firstn (n - 1) ldir). split.
  - replace (n - 1)%nat with (length (firstn (n - 1) ldir)) at 2 by (rewrite firstn_length; lia).
    apply all_dirs_in. intros d Hd. apply (dir_lt n key ldir e F2 Hn). rewrite <- (firstn_skipn (n - 1) ldir). apply in_or_app. left. exact Hd.
  - destruct key as [|a r]; [cbn in L; lia|]. cbn in H0. injection H0 as H0. subst a. apply chain_path.
    split; [rewrite firstn_length; cbn [length] in *; lia|]. intros k a d Ha Hd.
    assert (K : (k < n - 1)%nat).
    { assert (Q : (k < length (firstn (n - 1) ldir))%nat) by (apply nth_error_Some; congruence). rewrite firstn_length in Q. lia. }
    assert (Hd' : nth_error ldir k = Some d).
    { rewrite <- Hd. rewrite <- (firstn_skipn (n - 1) ldir) at 1. apply nth_error_app1. rewrite firstn_length. lia. }
    set (key := (1 + Z.of_nat n, 1 + Z.of_nat n) :: r) in *.
    destruct (CC k a d ltac:(rewrite nth_error_app1 by lia; exact Ha) Hd') as [s [Es En]]. exists s. split; [exact Es|].
    rewrite nth_error_app1 in En by lia. exact En.
Qed.
Lemma gen_few shuffle n fuel N used out used' : shuffles shuffle -> (0 < n)%nat ->
  genSnakes shuffle fuel N used n = Some (Ok (out, used')) -> (N <= 4 ^ (n - 1))%nat.
Proof.
  intros HS Hn E. pose proof (gen_spec shuffle n fuel N used HS Hn) as Q. rewrite E in Q. destruct Q as [keys [_ [L [F [D _]]]]].
  rewrite <- (all_dirs_length (n - 1)), <- (map_length (path (1 + Z.of_nat n, 1 + Z.of_nat n))), <- L.
  apply NoDup_incl_length; [exact D|]. intros key Hk.
  assert (G : exists xy, made n key xy).
  { clear - F Hk. induction F as [|a b l l' M F IH]; [destruct Hk|]. destruct Hk as [<-|Hk]; eauto. }
  destruct G as [xy M]. destruct (key_path n key xy Hn M) as [dirs [I ->]]. apply in_map, I.
Qed.
