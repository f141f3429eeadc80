From Coq Require Import String ZArith Permutation.
From Verif Require Import Model.SwapTypes Spec.SwapTypesSpec Proofs.Arrays Proofs.LossProofs
  Proofs.TypedProofs Proofs.TypedLabels Proofs.TypedScore Proofs.TypedJoint Proofs.TypedLoss Proofs.SwapTypes.
#[local] Open Scope nat_scope.

Lemma list_sum_perm a b : Permutation a b -> list_sum a = list_sum b.
Proof. induction 1; simpl; lia. Qed.
Lemma rows_of l : Forall (fun o => exists m, o = Some m) l ->
  mapM n_rows l = Ok (map (fun t => match nth t l None with Some m => mrows m | None => 0 end) (seq 0 (length l))).
Proof.
  induction 1 as [|o l [m ->] F IH]; [reflexivity|]. cbn [mapM n_rows bind]. rewrite IH. cbn [bind length seq map nth].
  rewrite <- seq_shift, map_map. reflexivity.
Qed.
Lemma full_rows n x : full_nodes n x -> mapM n_rows (tx_nodes x) = Ok (type_rows n x).
Proof. intros [L F]. rewrite rows_of by exact F. rewrite L. reflexivity. Qed.

Lemma picked_nodes n p x : permutes n p -> full_nodes n x ->
  pick p (tx_nodes x) = Ok (map (fun i => nth i (tx_nodes x) None) p) /\
  (forall e f, full_nodes n (TypedX (map (fun i => nth i (tx_nodes x) None) p) e f)) /\
  (forall e f t, t < n -> nth t (tx_nodes (TypedX (map (fun i => nth i (tx_nodes x) None) p) e f)) None = nth (part p t) (tx_nodes x) None).
Proof.
  intros P [L F]. split; [|split].
  - apply pick_ok. apply Forall_forall. intros a Ha. rewrite L. apply (permutes_in n p a P Ha).
  - intros e f. split; [simpl; rewrite map_length; exact (proj1 P)|]. simpl. apply Forall_forall. intros o Ho. apply in_map_iff in Ho.
    destruct Ho as [a [<- Ha]]. rewrite Forall_forall in F. apply F. apply nth_In. rewrite L. apply (permutes_in n p a P Ha).
  - intros e f t Ht. simpl. rewrite (nth_map_in _ _ _ 0) by (rewrite (proj1 P); exact Ht). reflexivity.
Qed.
Lemma renumbered_rows n p x x' t : renumbered n p x x' -> t < n -> x_rows x' t = x_rows x (part p t).
Proof. intros (_ & _ & _ & N & _) Ht. unfold x_rows. rewrite N by exact Ht. reflexivity. Qed.
Lemma rows_map n p x x' : length p = n -> (forall t, t < n -> x_rows x' t = x_rows x (part p t)) -> type_rows n x' = map (x_rows x) p.
Proof.
  intros L H. apply (nth_ext_d _ _ 0); [rewrite rows_length, map_length; auto|]. intros k Hk. rewrite rows_length in Hk.
  change (nth k (type_rows n x') 0) with (part (type_rows n x') k). rewrite rows_part by exact Hk. rewrite (nth_map_in _ _ _ 0) by lia. apply H, Hk.
Qed.
Lemma rows_sum n p x x' : permutes n p -> (forall t, t < n -> x_rows x' t = x_rows x (part p t)) ->
  list_sum (type_rows n x') = list_sum (type_rows n x).
Proof.
  intros P H. rewrite (rows_map n p x x' (proj1 P) H). unfold type_rows. apply list_sum_perm, Permutation_map, permutes_perm, P.
Qed.

(** the number of labels of type i fits the slot they are moved to *)
Definition fits (p : list nat) (x : typed_x) (i : nat) : Prop := x_rows x i = x_rows x (part p (part p i)) \/ x_rows x i = 1.

Lemma swap_one_ok states p x y : let n := length states in permutes n p -> full_nodes n x ->
  n * n <= length (tx_edges x) -> n * n <= length (tx_edge_features x) ->
  typed_labelling states (type_rows n x) y -> (forall i, i < n -> fits p x i) ->
  exists x' y', swap_one p states (map (part states) p) x y = Ok (x', y') /\ renumbered n p x x' /\ full_nodes n x' /\ length y' = length y /\
    forall i c, i < n -> c < x_rows x (part p (part p i)) ->
      nth (before (type_rows n x') (part p i) + c) y' 0%Z =
      (nth (before (type_rows n x) i + (if x_rows x i =? 1 then 0 else c))%nat y 0 - Z.of_nat (before states i) +
       Z.of_nat (before (map (part states) p) (part p i)))%Z.
Proof.
  intros n P F E1 E2 [LY Y] FT. unfold swap_one. destruct (picked_nodes n p x P F) as [EN [FN NN]]. rewrite EN. cbn [bind].
  rewrite (full_rows n x F). cbn [bind]. set (nodes := map _ p) in *.
  destruct (pick_pairs n p (tx_edges x) P E1) as [es [PE [LE NE]]]. destruct (pick_pairs n p (tx_edge_features x) P E2) as [fs [PF [LF NF]]].
  set (x' := TypedX nodes es fs).
  assert (R : renumbered n p x x').
  { split; [apply (FN es fs)|]. split; [exact LE|]. split; [exact LF|]. split; [apply (NN es fs)|]. intros a b Ha Hb. split; [apply NE|apply NF]; assumption. }
  assert (RR : forall t, t < n -> x_rows x' t = x_rows x (part p t)) by (intros t Ht; apply (renumbered_rows n p x x' t R Ht)).
  change (mapM n_rows nodes) with (mapM n_rows (tx_nodes x')). rewrite (full_rows n x' (FN es fs)). cbn [bind].
  pose proof P as [LP [BP IP]]. rewrite (proj1 F).
  destruct (move_ok n p (type_rows n x) (type_rows n x') y P (rows_length _ _) (rows_length _ _) (rows_sum n p x x' P RR) LY n 0 (repeat 0%Z (length y)))
    as [y1 [M [L1 N1]]].
  { lia. } { apply repeat_length. }
  { intros j _ Hj. unfold slot_ok. rewrite !rows_part by (try apply BP; exact Hj). rewrite RR by (apply BP; exact Hj). apply FT, Hj. }
  { intros j c Hj. lia. }
  rewrite M. cbn [bind].
  assert (N1' : forall j c, j < n -> c < x_rows x (part p (part p j)) ->
    nth (before (type_rows n x') (part p j) + c) y1 0%Z = nth (before (type_rows n x) j + (if x_rows x j =? 1 then 0 else c)) y 0%Z).
  { intros j c Hj Hc. rewrite N1; [|exact Hj|rewrite rows_part, RR by (apply BP; exact Hj); exact Hc]. unfold source. rewrite rows_part by exact Hj. reflexivity. }
  (* the type of every moved label *)
  assert (TY : forall k, k < length y1 -> exists j, j < n /\ exists c, c < x_rows x (part p (part p j)) /\ k = before (type_rows n x') (part p j) + c).
  { intros k Hk. rewrite L1, LY, <- (rows_sum n p x x' P RR) in Hk. destruct (locate _ _ Hk) as [s [c [Hs [Hc ->]]]]. rewrite rows_length in Hs.
    rewrite rows_part in Hc by exact Hs. destruct (permutes_onto n p s P Hs) as [j [Hj <-]]. exists j. split; [exact Hj|]. exists c. split; [|reflexivity].
    rewrite <- RR by exact Hs. exact Hc. }
  set (typ := fun k => match find (fun j => (before (type_rows n x') (part p j) <=? k) && (k <? before (type_rows n x') (part p j) + x_rows x (part p (part p j)))) (seq 0 n) with Some j => j | None => 0 end).
  assert (TE : forall j c, j < n -> c < x_rows x (part p (part p j)) -> typ (before (type_rows n x') (part p j) + c) = j).
  { intros j c Hj Hc. unfold typ. destruct (find _ (seq 0 n)) as [j'|] eqn:FD.
    - apply find_some in FD. destruct FD as [I T]. apply in_seq in I. apply andb_true_iff in T. destruct T as [T1 T2]. apply Nat.leb_le in T1. apply Nat.ltb_lt in T2.
      apply IP; try lia. pose proof (BP j Hj). pose proof (BP j' ltac:(lia)).
      apply (ranges_disjoint (type_rows n x') (part p j') (part p j) (before (type_rows n x') (part p j) + c - before (type_rows n x') (part p j')) c);
        rewrite ?rows_length, ?rows_part, ?RR by assumption; lia.
    - pose proof (find_none _ _ FD j ltac:(apply in_seq; lia)) as T. cbn beta in T.
      apply andb_false_iff in T. destruct T as [T|T]; [apply Nat.leb_gt in T|apply Nat.ltb_ge in T]; lia. }
  destruct (relabel_ok p states y1 typ P) as [y2 [EY [L2 N2]]].
  { intros k Hk. destruct (TY k Hk) as [j [Hj [c [Hc ->]]]]. rewrite TE by assumption. split; [exact Hj|]. rewrite N1' by assumption.
    apply Y; [exact Hj|]. rewrite rows_part by exact Hj. pose proof (FT j Hj) as FJ. unfold fits in FJ. destruct (Nat.eqb_spec (x_rows x j) 1); lia. }
  rewrite EY. cbn [bind]. fold n. rewrite PE. cbn [bind]. rewrite PF. cbn [bind]. exists x', y2. split; [reflexivity|]. split; [exact R|].
  split; [apply (FN es fs)|]. split; [congruence|]. intros i c Hi Hc. rewrite N2.
  - rewrite TE, N1' by assumption. reflexivity.
  - rewrite L1, LY, <- (rows_sum n p x x' P RR). pose proof (BP i Hi) as Bi. pose proof (before_part_le (type_rows n x') (part p i) ltac:(rewrite rows_length; exact Bi)) as PL.
    rewrite rows_part, RR in PL by exact Bi. lia.
Qed.
Lemma swap_one_bad states states' p x y : let n := length states in permutes n p -> full_nodes n x ->
  length y = list_sum (type_rows n x) -> (exists i, i < n /\ ~ fits p x i) -> swap_one p states states' x y = Err ValueError.
Proof.
  intros n P F LY [i [Hi B]]. unfold swap_one. destruct (picked_nodes n p x P F) as [EN [FN NN]]. rewrite EN. cbn [bind].
  rewrite (full_rows n x F). cbn [bind]. set (nodes := map _ p) in *. set (x' := TypedX nodes [] []).
  assert (RR : forall t, t < n -> x_rows x' t = x_rows x (part p t)) by (intros t Ht; unfold x_rows, x'; rewrite NN by exact Ht; reflexivity).
  change (mapM n_rows nodes) with (mapM n_rows (tx_nodes x')). rewrite (full_rows n x' (FN [] [])). cbn [bind]. rewrite (proj1 F).
  pose proof P as [LP [BP IP]].
  rewrite (move_bad n p (type_rows n x) (type_rows n x') y P (rows_length _ _) (rows_length _ _) (rows_sum n p x x' P RR) LY); [reflexivity|lia|apply repeat_length|].
  exists i. split; [lia|]. unfold slot_ok. rewrite !rows_part by (try apply BP; exact Hi). rewrite RR by (apply BP; exact Hi). exact B.
Qed.
Lemma swap_one_none states states' n p x y t : permutes n p -> length (tx_nodes x) = n -> nth_error (tx_nodes x) t = Some None ->
  swap_one p states states' x y = Err AttributeError.
Proof.
  intros P L H. unfold swap_one. rewrite (pick_ok p (tx_nodes x) None).
  - cbn [bind]. assert (E : mapM n_rows (tx_nodes x) = Err AttributeError).
    { clear - H. revert t H. induction (tx_nodes x) as [|o l IH]; intros [|t] H; try discriminate H; cbn [mapM].
      - injection H as ->. reflexivity.
      - destruct o as [m|]; [|reflexivity]. cbn [n_rows bind]. rewrite (IH t H). reflexivity. }
    rewrite E. reflexivity.
  - apply Forall_forall. intros a Ha. rewrite L. apply (permutes_in n p a P Ha).
Qed.

(** ** involutions *)
Lemma involution_fits n p x : involution n p -> forall i, i < n -> fits p x i.
Proof. intros [_ H] i Hi. left. rewrite (proj2 (H i Hi)). reflexivity. Qed.
Lemma swap_involution states p x y : let n := length states in involution n p -> full_nodes n x ->
  n * n <= length (tx_edges x) -> n * n <= length (tx_edge_features x) -> typed_labelling states (type_rows n x) y ->
  exists x' y', swap_one p states (map (part states) p) x y = Ok (x', y') /\ renumbered n p x x' /\ full_nodes n x' /\ same_states n p states x x' y y'.
Proof.
  intros n I F E1 E2 Y. pose proof (involution_permutes n p I) as P.
  destruct (swap_one_ok states p x y P F E1 E2 Y (involution_fits n p x I)) as [x' [y' [E [R [F' [L N]]]]]]. fold n in N, R, F'. exists x', y'.
  split; [exact E|]. split; [exact R|]. split; [exact F'|]. split; [exact L|]. intros t i Ht Hi. destruct I as [_ I]. destruct (I t Ht) as [B1 B2].
  specialize (N (part p t) i B1). rewrite B2 in N. rewrite (N Hi). destruct (Nat.eqb_spec (x_rows x (part p t)) 1) as [O1|O1]; [|reflexivity].
  replace i with 0 by lia. reflexivity.
Qed.

(** the result is a labelling of the renumbered types, for every permutation *)
Lemma same_states_labelling n p states x x' y y' : length states = n -> permutes n p -> renumbered n p x x' ->
  typed_labelling states (type_rows n x) y -> same_states n p states x x' y y' ->
  typed_labelling (map (part states) p) (type_rows n x') y' /\
  forall t i, t < n -> i < x_rows x (part p t) ->
    typed_lab (map (part states) p) (type_rows n x') y' t i = typed_lab states (type_rows n x) y (part p t) i.
Proof.
  intros LN P R [LY Y] [L N]. pose proof P as [LP [BP _]].
  assert (RR : forall t, t < n -> x_rows x' t = x_rows x (part p t)) by (intros t Ht; apply (renumbered_rows n p x x' t R Ht)).
  split; [split|].
  - rewrite L, LY. symmetry. apply (rows_sum n p x x' P RR).
  - rewrite map_length, LP. intros t i Ht Hi. rewrite rows_part, RR in Hi by exact Ht. rewrite N by assumption.
    assert (Q : part (map (part states) p) t = part states (part p t)) by (unfold part at 1; rewrite (nth_map_in _ _ _ 0) by lia; reflexivity).
    rewrite Q. specialize (Y (part p t) i). rewrite rows_part in Y by (apply BP, Ht). specialize (Y ltac:(rewrite LN; apply BP, Ht) Hi). lia.
  - intros t i Ht Hi. unfold typed_lab. rewrite N by assumption. f_equal. lia.
Qed.
(** and there is only one such labelling *)
Lemma same_states_unique n p states x x' y y1 y2 : permutes n p -> renumbered n p x x' -> length y = list_sum (type_rows n x) ->
  same_states n p states x x' y y1 -> same_states n p states x x' y y2 -> y1 = y2.
Proof.
  intros P R LY [L1 N1] [L2 N2]. apply (nth_ext_d _ _ 0%Z); [congruence|]. intros k Hk.
  assert (RR : forall t, t < n -> x_rows x' t = x_rows x (part p t)) by (intros t Ht; apply (renumbered_rows n p x x' t R Ht)).
  rewrite L1, LY, <- (rows_sum n p x x' P RR) in Hk. destruct (locate _ _ Hk) as [s [c [Hs [Hc ->]]]]. rewrite rows_length in Hs.
  rewrite rows_part, RR in Hc by exact Hs. rewrite N1, N2 by assumption. reflexivity.
Qed.
