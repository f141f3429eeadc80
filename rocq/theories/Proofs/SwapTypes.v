From Coq Require Import String ZArith Permutation.
From Verif Require Import Model.SwapTypes Spec.SwapTypesSpec Proofs.Arrays Proofs.LossProofs
  Proofs.TypedProofs Proofs.TypedLabels Proofs.TypedScore Proofs.TypedJoint Proofs.TypedLoss.
#[local] Open Scope nat_scope.

(** ** permutations of the types *)
Lemma involution_permutes n p : involution n p -> permutes n p.
Proof.
  intros [L H]. split; [exact L|]. split; [intros t Ht; apply H, Ht|]. intros s t Hs Ht E.
  rewrite <- (proj2 (H s Hs)), E. apply H, Ht.
Qed.
Lemma permutes_perm n p : permutes n p -> Permutation p (seq 0 n).
Proof.
  intros [L [B I]]. apply NoDup_Permutation_bis.
  - apply (NoDup_nth p 0). intros i j Hi Hj E. rewrite L in *. apply I; assumption.
  - rewrite seq_length. lia.
  - intros a Ha. apply (In_nth _ _ 0) in Ha. destruct Ha as [k [Hk <-]]. apply in_seq. split; [lia|]. apply B. lia.
Qed.
Lemma permutes_onto n p t : permutes n p -> t < n -> exists s, s < n /\ part p s = t.
Proof.
  intros P Ht. pose proof (permutes_perm n p P) as Q. assert (I : In t p) by (apply (Permutation_in _ (Permutation_sym Q)), in_seq; lia).
  apply (In_nth _ _ 0) in I. destruct I as [s [Hs E]]. destruct P as [L _]. exists s. split; [lia|exact E].
Qed.
Lemma sumn_permutes n p (f : nat -> Qc) : permutes n p -> sumn n (fun t => f (part p t)) = sumn n f.
Proof.
  intro P. rewrite <- !lsum_tab1. unfold tab1. rewrite <- (lsum_perm _ _ (Permutation_map f (permutes_perm n p P))). f_equal.
  destruct P as [L _]. unfold part. rewrite <- L. clear. induction p as [|a p IH]; [reflexivity|]. cbn [length seq map nth].
  f_equal. rewrite <- seq_shift, map_map. exact IH.
Qed.

(** ** picking *)
Lemma index_nth {A} (l : list A) i d : i < length l -> index l i = Ok (nth i l d).
Proof. intro H. unfold index. rewrite (nth_error_nth' l d H). reflexivity. Qed.
Lemma index_err {A} (l : list A) i : length l <= i -> index l i = Err IndexError.
Proof. intro H. unfold index. rewrite (proj2 (nth_error_None l i) H). reflexivity. Qed.
Lemma pick_ok {A} (q : list nat) (l : list A) d : Forall (fun i => i < length l) q -> pick q l = Ok (map (fun i => nth i l d) q).
Proof.
  intro F. unfold pick. induction F as [|i q Hi F IH]; [reflexivity|]. cbn [mapM map]. rewrite (index_nth l i d Hi). cbn [bind]. rewrite IH. reflexivity.
Qed.
Lemma pick_err {A} (q : list nat) (l : list A) : Exists (fun i => length l <= i) q -> pick q l = Err IndexError.
Proof.
  intro E. unfold pick. induction E as [i q Hi|i q E IH]; cbn [mapM].
  - rewrite index_err by exact Hi. reflexivity.
  - destruct (Nat.lt_ge_cases i (length l)) as [J|J].
    + destruct l as [|a l]; [simpl in J; lia|]. rewrite (index_nth _ i a J). cbn [bind]. rewrite IH. reflexivity.
    + rewrite index_err by exact J. reflexivity.
Qed.
Lemma nth_list_prod {A B} (l : list A) (r : list B) a b da db : a < length l -> b < length r ->
  nth (a * length r + b) (list_prod l r) (da, db) = (nth a l da, nth b r db).
Proof.
  intros Ha Hb. rewrite list_prod_concat.
  rewrite (concat_nth_const _ (length r)); try (rewrite ?map_length; assumption).
  - rewrite (nth_map_in _ _ _ da) by exact Ha. rewrite (nth_map_in _ _ _ db) by exact Hb. reflexivity.
  - apply Forall_forall. intros s Hs. apply in_map_iff in Hs. destruct Hs as [c [<- _]]. apply map_length.
Qed.
Lemma permutes_in n p a : permutes n p -> In a p -> a < n.
Proof. intros [L [B _]] H. apply (In_nth _ _ 0) in H. destruct H as [k [Hk <-]]. apply B. lia. Qed.
Lemma pick_pairs {A} n p (l : list (option A)) : permutes n p -> n * n <= length l ->
  exists l', pick (map (fun q => fst q * n + snd q) (list_prod p p)) l = Ok l' /\ length l' = n * n /\
    forall a b, a < n -> b < n -> nth (a * n + b) l' None = nth (part p a * n + part p b) l None.
Proof.
  intros P H. pose proof P as [L [B _]]. rewrite (pick_ok _ l None).
  - eexists. split; [reflexivity|]. rewrite !map_length, prod_length, L. split; [reflexivity|]. intros a b Ha Hb.
    rewrite (nth_map_in _ _ _ 0) by (rewrite map_length, prod_length, L; apply pair_lt; assumption).
    rewrite (nth_map_in _ _ _ (0, 0)) by (rewrite prod_length, L; apply pair_lt; assumption).
    assert (E : nth (a * n + b) (list_prod p p) (0, 0) = (part p a, part p b)).
    { rewrite <- L. apply nth_list_prod; rewrite L; assumption. }
    rewrite E. reflexivity.
  - apply Forall_forall. intros i Hi. apply in_map_iff in Hi. destruct Hi as [[a b] [<- Hp]]. apply in_prod_iff in Hp. destruct Hp as [Ha Hb].
    apply (permutes_in n p _ P) in Ha, Hb. cbn [fst snd]. pose proof (pair_lt a b n Ha Hb). lia.
Qed.

(** ** bounds and the tables of the labels *)
Lemma bounds_nth l i : i <= length l -> nth i (bounds l) 0 = before l i.
Proof.
  intro H. unfold bounds. destruct i as [|i]; [reflexivity|]. cbn [nth]. rewrite (nth_map_seq _ _ _ 0) by lia. reflexivity.
Qed.
Lemma bounds_length l : length (bounds l) = S (length l).
Proof. unfold bounds. simpl. rewrite map_length, seq_length. reflexivity. Qed.
Lemma offsets_nth l i : i < length l -> nth i (offsets l) 0 = before l i.
Proof. intro H. unfold offsets. rewrite (nth_map_seq _ _ _ 0) by exact H. reflexivity. Qed.
Lemma offsets_length l : length (offsets l) = length l.
Proof. unfold offsets. rewrite map_length, seq_length. reflexivity. Qed.
Lemma spread_nth (c l : list nat) t i : length c = length l -> t < length l -> i < part l t ->
  before l t + i < length (concat (map (fun p => repeat (fst p) (snd p)) (combine c l))) /\
  nth (before l t + i) (concat (map (fun p => repeat (fst p) (snd p)) (combine c l))) 0 = nth t c 0.
Proof.
  intros L Ht Hi. set (bs := map (fun p => repeat (fst p) (snd p)) (combine c l)).
  assert (LB : length bs = length l) by (unfold bs; rewrite map_length, combine_length; lia).
  assert (NB : forall k, k < length l -> nth k bs [] = repeat (nth k c 0) (part l k)).
  { intros k Hk. unfold bs. rewrite (nth_map_in _ _ _ (0, 0)) by (rewrite combine_length; lia). rewrite nth_combine_d by lia. reflexivity. }
  assert (E : map (@length nat) bs = l).
  { apply (nth_ext_d _ _ 0); [rewrite map_length; exact LB|]. intros k Hk. rewrite map_length, LB in Hk.
    rewrite (nth_map_in _ _ _ []) by lia. rewrite NB by exact Hk. apply repeat_length. }
  split.
  - rewrite concat_len, E. pose proof (before_part_le l t Ht). lia.
  - rewrite <- E at 1. rewrite concat_blocks by (rewrite ?LB, ?NB, ?repeat_length; assumption). rewrite NB by exact Ht.
    rewrite nth_indep with (d' := nth t c 0) by (rewrite repeat_length; exact Hi). apply nth_repeat.
Qed.

(** ** moving the labels *)
Lemma set_slice_same y a b v : a <= b -> b <= length y -> length v = b - a ->
  set_slice y a b v = Ok (firstn a y ++ v ++ skipn b y).
Proof.
  intros H1 H2 H3. unfold set_slice. rewrite !Nat.min_l by lia. rewrite H3, Nat.eqb_refl. reflexivity.
Qed.
Lemma set_slice_one y a b z : a <= b -> b <= length y ->
  set_slice y a b [z] = Ok (firstn a y ++ repeat z (b - a) ++ skipn b y).
Proof.
  intros H1 H2. unfold set_slice. rewrite !Nat.min_l by lia. cbn [length]. destruct (Nat.eqb_spec 1 (b - a)) as [<-|]; reflexivity.
Qed.
Lemma set_slice_bad y a b v : a <= b -> b <= length y -> length v <> b - a -> length v <> 1 -> set_slice y a b v = Err ValueError.
Proof.
  intros H1 H2 H3 H4. unfold set_slice. rewrite !Nat.min_l by lia. rewrite (proj2 (Nat.eqb_neq _ _) H3). destruct v as [|z [|z' v]]; try reflexivity. simpl in H4. lia.
Qed.
Lemma nth_put (y v : list Z) a k : a + length v <= length y ->
  length (firstn a y ++ v ++ skipn (a + length v) y) = length y /\
  nth k (firstn a y ++ v ++ skipn (a + length v) y) 0%Z =
    if (a <=? k) && (k <? a + length v) then nth (k - a) v 0%Z else nth k y 0%Z.
Proof.
  intro H. split; [rewrite !app_length, firstn_length, skipn_length; lia|].
  destruct (Nat.leb_spec a k) as [J|J]; cbn [andb].
  - rewrite app_nth2 by (rewrite firstn_length; lia). rewrite firstn_length, Nat.min_l by lia.
    destruct (Nat.ltb_spec k (a + length v)) as [K|K].
    + apply app_nth1. lia.
    + rewrite app_nth2 by lia. rewrite nth_skipn. f_equal. lia.
  - rewrite app_nth1 by (rewrite firstn_length; lia). apply nth_firstn. exact J.
Qed.

(** one step: copy, or broadcast a single label *)
Definition source (rows : list nat) (y : list Z) (i k : nat) : Z :=
  nth (before rows i + (if part rows i =? 1 then 0 else k)) y 0%Z.
Lemma step_ok rows y y' i a len : length y' = length y -> length y = list_sum rows -> i < length rows -> a + len <= length y' ->
  part rows i = len \/ part rows i = 1 ->
  exists y'', set_slice y' a (a + len) (skipn (before rows i) (firstn (before rows (S i)) y)) = Ok y'' /\ length y'' = length y' /\
    forall k, nth k y'' 0%Z = if (a <=? k) && (k <? a + len) then source rows y i (k - a) else nth k y' 0%Z.
Proof.
  intros L1 L2 Hi Ha C. pose proof (before_part_le rows i Hi) as PL. rewrite before_S by exact Hi.
  set (v := skipn (before rows i) (firstn (before rows i + part rows i) y)).
  assert (LV : length v = part rows i) by (unfold v; rewrite skipn_length, firstn_length; lia).
  assert (NV : forall k, k < part rows i -> nth k v 0%Z = nth (before rows i + k) y 0%Z).
  { intros k Hk. unfold v. rewrite nth_skipn, nth_firstn by lia. reflexivity. }
  destruct (Nat.eq_dec (part rows i) len) as [E|E].
  - assert (EV : len = length v) by lia. rewrite set_slice_same by lia. rewrite EV. eexists. split; [reflexivity|].
    assert (HH : a + length v <= length y') by lia.
    split; [apply (nth_put y' v a 0 HH)|]. intro k. rewrite (proj2 (nth_put y' v a k HH)).
    destruct (Nat.leb_spec a k) as [J|J]; cbn [andb]; [|reflexivity]. destruct (Nat.ltb_spec k (a + length v)) as [K|K]; [|reflexivity].
    rewrite NV by lia. unfold source. f_equal. destruct (Nat.eqb_spec (part rows i) 1) as [O1|O1]; lia.
  - assert (O1 : part rows i = 1) by (destruct C; [contradiction|assumption]).
    assert (EV : v = [nth (before rows i) y 0%Z]).
    { destruct v as [|z [|z' v']] eqn:EV; simpl in LV; try lia. specialize (NV 0). rewrite O1, Nat.add_0_r in NV. simpl in NV. f_equal. apply NV. lia. }
    rewrite EV, set_slice_one by lia. replace (a + len - a) with len by lia.
    set (u := repeat _ len). assert (LU : length u = len) by apply repeat_length. rewrite <- LU. eexists. split; [reflexivity|].
    assert (HH : a + length u <= length y') by lia.
    split; [apply (nth_put y' u a 0 HH)|]. intro k. rewrite (proj2 (nth_put y' u a k HH)).
    destruct (Nat.leb_spec a k) as [J|J]; cbn [andb]; [|reflexivity]. destruct (Nat.ltb_spec k (a + length u)) as [K|K]; [|reflexivity].
    unfold source. rewrite O1. cbn [Nat.eqb]. rewrite Nat.add_0_r. unfold u.
    rewrite nth_indep with (d' := nth (before rows i) y 0%Z) by (rewrite repeat_length; lia). apply nth_repeat.
Qed.

Section Move.
  Variables (n : nat) (p rows rows' : list nat) (y : list Z).
  Hypothesis P : permutes n p.
  Hypothesis LR : length rows = n.
  Hypothesis LR' : length rows' = n.
  Hypothesis LS : list_sum rows' = list_sum rows.
  Hypothesis LY : length y = list_sum rows.

  (** slot i is the one that the labels of type i are moved to *)
  Definition slot_ok i := part rows i = part rows' (part p i) \/ part rows i = 1.

  Lemma move_ok k : forall i y', i + k = n -> length y' = length y -> (forall j, i <= j -> j < n -> slot_ok j) ->
    (forall j c, j < i -> c < part rows' (part p j) -> nth (before rows' (part p j) + c) y' 0%Z = source rows y j c) ->
    exists y'', move_labels p (bounds rows) (bounds rows') y k i y' = Ok y'' /\ length y'' = length y /\
      forall j c, j < n -> c < part rows' (part p j) -> nth (before rows' (part p j) + c) y'' 0%Z = source rows y j c.
  Proof.
    pose proof P as [L [B I]]. induction k as [|k IH]; intros i y' E L' S D.
    - exists y'. split; [reflexivity|]. split; [exact L'|]. intros j c Hj. apply D. lia.
    - cbn [move_labels]. assert (Hi : i < n) by lia. pose proof (B i Hi) as Bi.
      rewrite (index_nth p i 0) by lia. change (nth i p 0) with (part p i). cbn [bind].
      rewrite (index_nth (bounds rows') _ 0) by (rewrite bounds_length; lia). rewrite bounds_nth by lia. cbn [bind].
      rewrite (index_nth (bounds rows') _ 0) by (rewrite bounds_length; lia). rewrite bounds_nth by lia. cbn [bind].
      rewrite !bounds_nth by lia. rewrite (before_S rows' (part p i)) by lia.
      pose proof (before_part_le rows' (part p i) ltac:(lia)) as PL.
      destruct (step_ok rows y y' i (before rows' (part p i)) (part rows' (part p i)) L' LY ltac:(lia) ltac:(lia) (S i (Nat.le_refl i) Hi))
        as [y1 [E1 [L1 N1]]].
      rewrite E1. cbn [bind]. apply IH; [lia|congruence|intros j H1 H2; apply S; lia|].
      intros j c Hj Hc. rewrite N1. destruct (Nat.eq_dec j i) as [->|Q].
      + replace (_ <=? _) with true by (symmetry; apply Nat.leb_le; lia). replace (_ <? _) with true by (symmetry; apply Nat.ltb_lt; lia).
        cbn [andb]. f_equal. lia.
      + destruct (_ && _)%bool eqn:T; [|apply D; [lia|exact Hc]]. apply andb_true_iff in T. destruct T as [T1 T2].
        apply Nat.leb_le in T1. apply Nat.ltb_lt in T2. exfalso. apply Q. apply I; try lia.
        pose proof (B j ltac:(lia)).
        apply (ranges_disjoint rows' (part p j) (part p i) c (before rows' (part p j) + c - before rows' (part p i))); lia.
  Qed.
  Lemma move_bad k : forall i y', i + k = n -> length y' = length y -> (exists j, i <= j < n /\ ~ slot_ok j) ->
    move_labels p (bounds rows) (bounds rows') y k i y' = Err ValueError.
  Proof.
    pose proof P as [L [B I]]. induction k as [|k IH]; intros i y' E L' [j [Hj S]]; [lia|].
    cbn [move_labels]. assert (Hi : i < n) by lia. pose proof (B i Hi) as Bi.
    rewrite (index_nth p i 0) by lia. change (nth i p 0) with (part p i). cbn [bind].
    rewrite (index_nth (bounds rows') _ 0) by (rewrite bounds_length; lia). rewrite bounds_nth by lia. cbn [bind].
    rewrite (index_nth (bounds rows') _ 0) by (rewrite bounds_length; lia). rewrite bounds_nth by lia. cbn [bind].
    rewrite !bounds_nth by lia. rewrite (before_S rows' (part p i)) by lia.
    pose proof (before_part_le rows' (part p i) ltac:(lia)) as PL.
    assert (DS : slot_ok i \/ ~ slot_ok i) by (unfold slot_ok; lia). destruct DS as [SI|SI].
    - destruct (step_ok rows y y' i (before rows' (part p i)) (part rows' (part p i)) L' LY ltac:(lia) ltac:(lia) SI)
        as [y1 [E1 [L1 N1]]].
      rewrite E1. cbn [bind]. apply IH; [lia|congruence|]. exists j. split; [|exact S]. destruct (Nat.eq_dec i j) as [->|]; [contradiction|lia].
    - pose proof (before_part_le rows i ltac:(lia)) as PI. rewrite set_slice_bad; [reflexivity|lia|lia| |].
      + rewrite before_S by lia. rewrite skipn_length, firstn_length. unfold slot_ok in SI. lia.
      + rewrite before_S by lia. rewrite skipn_length, firstn_length. unfold slot_ok in SI. lia.
  Qed.
End Move.

(** ** relabelling *)
Lemma relabel_ok (p states : list nat) (ls : list Z) (typ : nat -> nat) : let n := length states in permutes n p ->
  (forall k, k < length ls -> typ k < n /\ (Z.of_nat (before states (typ k)) <= nth k ls 0%Z < Z.of_nat (before states (typ k) + part states (typ k)))%Z) ->
  exists ls', relabel p states (map (part states) p) ls = Ok ls' /\ length ls' = length ls /\
    forall k, k < length ls -> nth k ls' 0%Z =
      (nth k ls 0 - Z.of_nat (before states (typ k)) + Z.of_nat (before (map (part states) p) (part p (typ k))))%Z.
Proof.
  intros n [L [B _]] H. revert typ H. unfold relabel. induction ls as [|z ls IH]; intros typ H; [exists []; repeat split; simpl; lia|].
  cbn [mapM]. destruct (H 0 ltac:(simpl; lia)) as [Ht Hz]. cbn [nth] in Hz. set (t := typ 0) in *. pose proof (B t Ht) as Bt.
  assert (K : Z.to_nat z - before states t < part states t) by lia.
  assert (Ez : Z.to_nat z = before states t + (Z.to_nat z - before states t)) by lia.
  destruct (spread_nth (offsets states) states t _ (offsets_length states) Ht K) as [D1 D2].
  destruct (spread_nth (seq 0 (length states)) states t _ (seq_length _ _) Ht K) as [T1 T2].
  rewrite <- Ez in D1, D2, T1, T2. rewrite offsets_nth in D2 by exact Ht. rewrite seq_nth in T2 by exact Ht.
  rewrite (zindex_ok (delta_by_y states) z 0) by (unfold delta_by_y; lia). unfold delta_by_y at 1. rewrite D2. cbn [bind].
  rewrite (zindex_ok (typ_by_y states) z 0) by (unfold typ_by_y; lia). unfold typ_by_y at 1. rewrite T2. cbn [bind Nat.add].
  rewrite (index_nth p t 0) by (unfold n in *; lia). change (nth t p 0) with (part p t). cbn [bind].
  rewrite (index_nth (offsets _) _ 0) by (rewrite offsets_length, map_length; unfold n in *; lia).
  rewrite offsets_nth by (rewrite map_length; unfold n in *; lia). cbn [bind].
  destruct (IH (fun k => typ (S k))) as [ls' [E [L' N]]]; [intros k Hk; apply (H (S k)); simpl; lia|].
  rewrite E. cbn [bind]. eexists. split; [reflexivity|]. split; [simpl; congruence|]. intros [|k] Hk; [reflexivity|]. cbn [nth]. apply N. simpl in Hk. lia.
Qed.
Lemma locate rows k : k < list_sum rows -> exists t i, t < length rows /\ i < part rows t /\ k = before rows t + i.
Proof.
  revert k. induction rows as [|r rows IH]; intros k Hk; [simpl in Hk; lia|]. destruct (Nat.lt_ge_cases k r) as [J|J].
  - exists 0, k. simpl. unfold part. simpl. split; [lia|]. split; [exact J|]. reflexivity.
  - cbn [list_sum fold_right] in Hk. change (fold_right Nat.add 0) with list_sum in Hk. destruct (IH (k - r) ltac:(lia)) as [t [i [A [B C]]]].
    exists (S t), i. split; [simpl; lia|]. split; [exact B|]. rewrite before_cons. lia.
Qed.
