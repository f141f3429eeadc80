(** An exact multi-type solver by exhaustive search, and one concrete model and instance. *)
From Coq Require Import String ZArith.
From Verif Require Import Model.Typed Model.Exhaustive Spec.TypedSpec Proofs.Arrays Proofs.LossProofs Proofs.TypedProofs Proofs.TypedLabels
  Proofs.TypedScore Proofs.TypedJoint Proofs.TypedLoss Proofs.TypedInference.

(** ** exhaustive search *)
Fixpoint ex17_all (shapes : list (nat * nat)) : list (list (list nat)) :=
  match shapes with
  | [] => [[]]
  | (n, k) :: r => flat_map (fun a => map (cons a) (ex17_all r)) (product_range k n)
  end.
Fixpoint ex17_best {A} (f : A -> Qc) (d : A) (l : list A) : A :=
  match l with
  | [] => d
  | a :: r => let b := ex17_best f d r in if Qcleb (f b) (f a) then a else b
  end.
Definition ex17_fun (ll : list (list nat)) : nat -> nat -> nat := fun t i => nth i (nth t ll []) O.
Definition ex17_solve (Us : list mat) (edges : list (list (nat * nat))) (Ps : list pairwise) : res (ad3_answer (list mat)) :=
  let n := length Us in
  let es := fun a b => map (fun p => (Z.of_nat (fst p), Z.of_nat (snd p))) (nth (a * n + b) edges []) in
  let val := fun ll => potentials_score n (fun t => mrows (nth t Us (Mat 0 0 []))) es Us Ps (ex17_fun ll) in
  match ex17_all (map (fun U => (mrows U, mcols U)) Us) with
  | [] => Err ValueError
  | l0 :: r =>
      let ll := ex17_best val l0 r in
      Ok (map (fun q => mtab (mrows (fst q)) (mcols (fst q)) (fun i s => if (s =? nth i (snd q) O)%nat then 1 else 0)) (combine Us ll),
          [], - val ll, Integral)
  end.
Definition ex17_lib : ad3_lib :=
  Ad3Lib (fun _ _ _ _ => Err OtherException) (fun Us edges Ps _ => ex17_solve Us edges Ps)
         (fun _ _ _ _ _ => Err OtherException) (fun Us edges Ps _ _ => ex17_solve Us edges Ps).

Lemma best_spec {A} (f : A -> Qc) l d : In (ex17_best f d l) (d :: l) /\ forall a, In a (d :: l) -> f a <= f (ex17_best f d l).
Proof.
  induction l as [|b l [IH1 IH2]]; cbn [ex17_best].
  - split; [left; reflexivity|]. intros a [->|[]]. apply Qcle_refl.
  - destruct (Qcleb_spec (f (ex17_best f d l)) (f b)) as [H|H].
    + split; [right; left; reflexivity|]. intros a [->|[->|Ha]].
      * apply Qcle_trans with (f (ex17_best f a l)); [apply IH2; left; reflexivity|exact H].
      * apply Qcle_refl.
      * apply Qcle_trans with (f (ex17_best f d l)); [apply IH2; right; exact Ha|exact H].
    + split; [destruct IH1 as [E|E]; [left; exact E|right; right; exact E]|].
      intros a [->|[->|Ha]]; [apply IH2; left; reflexivity|apply Qclt_le_weak; exact H|apply IH2; right; exact Ha].
Qed.
Lemma product_spec k n l : In l (product_range k n) <-> length l = n /\ Forall (fun s => (s < k)%nat) l.
Proof.
  revert l. induction n as [|n IH]; intro l; cbn [product_range].
  - split; [intros [<-|[]]; auto|]. intros [L _]. destruct l; [left; reflexivity|discriminate L].
  - rewrite in_flat_map. split.
    + intros [a [Ha Hl]]. apply in_map_iff in Hl. destruct Hl as [l' [<- Hl]]. apply IH in Hl. destruct Hl as [L F]. apply in_seq in Ha.
      split; [simpl; congruence|constructor; [lia|exact F]].
    + intros [L F]. destruct l as [|a l]; [discriminate L|]. inversion F; subst. exists a. split; [apply in_seq; lia|]. apply in_map_iff. exists l.
      split; [reflexivity|]. apply IH. split; [simpl in L; lia|assumption].
Qed.
Lemma all_spec shapes ll : In ll (ex17_all shapes) <->
  Forall2 (fun q l => length l = fst q /\ Forall (fun s => (s < snd q)%nat) l) shapes ll.
Proof.
  revert ll. induction shapes as [|[n k] r IH]; intro ll; cbn [ex17_all].
  - split; [intros [<-|[]]; constructor|]. intro H. inversion H; subst. left; reflexivity.
  - rewrite in_flat_map. split.
    + intros [a [Ha Hl]]. apply in_map_iff in Hl. destruct Hl as [l' [<- Hl]]. apply IH in Hl. apply product_spec in Ha. constructor; [exact Ha|exact Hl].
    + intro H. inversion H as [|? l ? r' H1 H2]; subst. exists l. split; [apply product_spec; exact H1|]. apply in_map_iff. exists r'. split; [reflexivity|apply IH; exact H2].
Qed.
Lemma F2_nth {A B} (R : A -> B -> Prop) l r da db k : Forall2 R l r -> (k < length l)%nat -> R (nth k l da) (nth k r db).
Proof. intro H. revert k. induction H; intros [|k] Hk; simpl in *; try lia; auto. apply IHForall2. lia. Qed.
Lemma F2_intro {A B} (R : A -> B -> Prop) l r da db : length l = length r -> (forall k, (k < length l)%nat -> R (nth k l da) (nth k r db)) -> Forall2 R l r.
Proof.
  revert r. induction l as [|a l IH]; intros [|b r] L H; simpl in L; try lia; constructor.
  - apply (H O). simpl. lia.
  - apply IH; [lia|]. intros k Hk. apply (H (S k)). simpl. lia.
Qed.

Lemma ex17_exact plus g x : typed_instance g x -> Forall (fun k => (0 < k)%nat) (ty_states g) -> exact_typed ex17_lib plus g x.
Proof.
  intros T POS. intros Us Ps SH LP. set (n := length (ty_states g)) in *. pose proof SH as [LU SU]. fold n in LU, SU.
  pose proof T as (LN & LE0 & _ & _ & TE). fold n in LN, LE0, TE.
  assert (SC : solver_call ex17_lib plus Us (solver_edges x) Ps = ex17_solve Us (solver_edges x) Ps) by (destruct plus; reflexivity).
  unfold exact_answer. rewrite SC. unfold ex17_solve. rewrite LU.
  set (rows := fun t => mrows (nth t Us (Mat 0 0 []))). set (shapes := map (fun U => (mrows U, mcols U)) Us).
  set (es := fun a b => map (fun p : nat * nat => (Z.of_nat (fst p), Z.of_nat (snd p))) (nth (a * n + b) (solver_edges x) [])).
  set (val := fun ll => potentials_score n rows es Us Ps (ex17_fun ll)).
  assert (LS : length shapes = n) by (unfold shapes; rewrite map_length; exact LU).
  assert (NS : forall t, (t < n)%nat -> nth t shapes (0, 0)%nat = (rows t, mcols (nth t Us (Mat 0 0 [])))).
  { intros t Ht. unfold shapes. rewrite (nth_map_in _ _ _ (Mat 0 0 [])) by lia. reflexivity. }
  assert (ES : forall a b, (a < n)%nat -> (b < n)%nat -> es a b = x_edges n x a b).
  { intros a b Ha Hb. pose proof (pair_lt a b n Ha Hb). destruct (TE a b Ha Hb) as [FE _]. unfold es, solver_edges. rewrite (nth_map_in _ _ _ None) by lia.
    unfold x_edges in *. destruct (nth (a * n + b) (tx_edges x) None) as [e|]; [|reflexivity]. rewrite map_map. rewrite <- (map_id e) at 2. apply map_ext_in.
    intros [u v] Hp. rewrite Forall_forall in FE. specialize (FE _ Hp). cbn [fst snd] in *. f_equal; lia. }
  assert (VE : forall ll, val ll = potentials_score n rows (x_edges n x) Us Ps (ex17_fun ll)).
  { intro ll. unfold val, potentials_score, typed_score. f_equal. apply sumn_ext. intros a Ha. apply sumn_ext. intros b Hb. rewrite ES by assumption. reflexivity. }
  assert (MEM : forall y', (forall t i, (t < n)%nat -> (i < rows t)%nat -> (y' t i < mcols (nth t Us (Mat 0 0 [])))%nat) ->
     exists ll, In ll (ex17_all shapes) /\ forall t i, (t < n)%nat -> (i < rows t)%nat -> ex17_fun ll t i = y' t i).
  { intros y' Hy. exists (map (fun t => map (y' t) (seq 0 (rows t))) (seq 0 n)).
    assert (NL : forall t, (t < n)%nat -> nth t (map (fun t => map (y' t) (seq 0 (rows t))) (seq 0 n)) [] = map (y' t) (seq 0 (rows t))).
    { intros t Ht. rewrite (nth_map_in _ _ _ O) by (rewrite seq_length; exact Ht). rewrite seq_nth by exact Ht. reflexivity. }
    split.
    - apply all_spec. apply (F2_intro _ _ _ (0, 0)%nat []); [rewrite map_length, seq_length; exact LS|]. intros t Ht. rewrite LS in Ht. rewrite NS, NL by exact Ht. cbn [fst snd].
      split; [rewrite map_length, seq_length; reflexivity|]. apply Forall_forall. intros s Hs. apply in_map_iff in Hs. destruct Hs as [i [<- Hi]]. apply in_seq in Hi. apply Hy; [exact Ht|lia].
    - intros t i Ht Hi. unfold ex17_fun. rewrite NL by exact Ht. rewrite (nth_map_in _ _ _ O) by (rewrite seq_length; exact Hi). rewrite seq_nth by exact Hi. reflexivity. }
  assert (NE : exists ll, In ll (ex17_all shapes)).
  { destruct (MEM (fun _ _ => O)) as [ll [H _]]; [|exists ll; exact H]. intros t i Ht _. destruct (SU t Ht) as [_ ->]. rewrite Forall_forall in POS. apply POS. apply nth_In. exact Ht. }
  destruct (ex17_all shapes) as [|l0 r] eqn:EA; [destruct NE as [? []]|].
  destruct (best_spec val r l0) as [B1 B2]. set (ll := ex17_best val l0 r) in *.
  assert (ILL : In ll (ex17_all shapes)) by (rewrite EA; exact B1). apply all_spec in ILL.
  assert (LL : length ll = n) by (rewrite <- LS; symmetry; clear -ILL; induction ILL; simpl; congruence).
  eexists. eexists. eexists. exists (ex17_fun ll). split; [reflexivity|]. split.
  - split; [rewrite map_length, combine_length; lia|]. intros t Ht. cbv zeta. rewrite LU in Ht.
    rewrite (nth_map_in _ _ _ (Mat 0 0 [], [])) by (rewrite combine_length; lia). rewrite nth_combine_d by lia. cbn [fst snd].
    split; [apply mtab_ok|]. split; [reflexivity|]. split; [reflexivity|]. intros i Hi.
    pose proof (F2_nth _ _ _ (0, 0)%nat [] t ILL ltac:(lia)) as [Q1 Q2]. rewrite NS in Q1, Q2 by exact Ht. cbn [fst snd] in Q1, Q2. fold (rows t) in Hi. split.
    + rewrite Forall_forall in Q2. apply Q2. unfold ex17_fun. apply nth_In. lia.
    + intros s Hs. rewrite mget_mtab by assumption. reflexivity.
  - intros y' Hy. fold rows. destruct (MEM y' Hy) as [ll' [I' E']]. rewrite (potentials_ext _ _ _ _ _ y' (ex17_fun ll')).
    + rewrite <- !VE. apply B2. exact I'.
    + intros t i Ht Hi. symmetry. apply E'; assumption.
    + intros a b Ha Hb. destruct (TE a b Ha Hb) as [FE _]. unfold rows. destruct (SU a Ha) as [-> _]. destruct (SU b Hb) as [-> _]. exact FE.
Qed.

(** ** a model with two node types: two and three states, one and two features; edges within
    type 0 and between the types have one feature, edges within type 1 have none *)
Definition ex17_q (z : Z) : Qc := Q2Qc (inject_Z z).
Definition ex17_g : ty_crf :=
  TyCRF [2; 3]%nat [1; 2]%nat [[1; 1]; [1; 0]]%nat [[1; ex17_q 2]; [1; ex17_q 3; 1]] "ad3" false.
Definition ex17_x : typed_x :=
  TypedX [Some (Mat 2 1 [[1]; [ex17_q (-1)]]); Some (Mat 1 2 [[1; 1]])]
         [Some [(0, 1)]%Z; Some [(1, 0)]%Z; None; Some []]
         [Some (Mat 1 1 [[1]]); Some (Mat 1 1 [[ex17_q 2]]); None; None].
Definition ex17_y : list nat := [0; 1; 4]%nat.
(** 2 + 6 + 4 + 6 + 6 + 0 weights *)
Definition ex17_w : list Qc := map ex17_q [1; -1; 2; 0; 1; 1; 0; -2; 1; 0; 0; 1; 1; 0; 2; -1; 0; 1; 0; 0; 0; 0; 0; 5]%Z.
Definition ex17_b : backends := Backends (fun _ => Err OtherException) None (fun z => z) None (Some ex17_lib).

Lemma ex17_well_typed : well_typed ex17_g.
Proof.
  split; [simpl; lia|]. split; [reflexivity|]. split; [reflexivity|]. split; [repeat constructor|]. split; [|split; [reflexivity|]].
  - intros [|[|i]] [|[|j]] Hi Hj; simpl in *; try reflexivity; lia.
  - intros [|[|t]] Ht; simpl in *; try reflexivity; lia.
Qed.
Lemma ex17_instance : typed_instance ex17_g ex17_x.
Proof. apply (proj1 (check_x_spec ex17_g ex17_x ex17_well_typed)). vm_compute. reflexivity. Qed.
Lemma ex17_label : ty_valid_label ex17_g ex17_x ex17_y.
Proof.
  apply (proj1 (proj1 (check_xy_spec ex17_g ex17_x (map Z.of_nat ex17_y) ex17_well_typed ltac:(simpl; lia)))). vm_compute. reflexivity.
Qed.
