(** C97: negative entries of symmetric_edge_features and antisymmetric_edge_features
    (models/edge_feature_graph_crf.py 64-92, 146-206). *)
From Coq Require Import ZArith.
From Verif Require Import Spec.SignedSpec Spec.LossSpec Spec.SolverSpec Proofs.Arrays Proofs.SignedProofs.

(** The constructor's checks compare the indices as they are given: none may be too large, none may be in both lists. *)
Theorem C97_check g : efz_check_declared g = Ok tt <->
  Forall (fun z => (z < Z.of_nat (efz_edge_features g))%Z) (efz_sym g ++ efz_anti g) /\ (forall z, In z (efz_sym g) -> ~ In z (efz_anti g)).
Proof. exact (check_iff g). Qed.
(** joint_feature counts negative indices from the end: the model is that with the rows that are meant ... *)
Theorem C97_meant g x y : Forall (in_range (efz_edge_features g)) (efz_sym g ++ efz_anti g) -> efz_joint_feature g x y = ef_joint_feature (efz_meant g) x y.
Proof. exact (joint_meant g x y). Qed.
(** ... and without negative indices the checks are those of this model. *)
Theorem C97_nonnegative g : Forall (fun z => (0 <= z)%Z) (efz_sym g ++ efz_anti g) -> efz_check_declared g = Ok tt -> ef_check_declared (efz_meant g) = Ok tt.
Proof. exact (check_nonneg g). Qed.
(** An index out of range is an IndexError in joint_feature, ... *)
Theorem C97_out_of_range g x y : mcols (ex_features x) = efz_features g -> length (ex_edges x) = mrows (ex_edge_features x) -> mcols (ex_edge_features x) = efz_edge_features g ->
  labelling (mrows (ex_features x)) (efz_states g) y -> graph_edges (mrows (ex_features x)) (ex_edges x) ->
  ~ Forall (in_range (efz_edge_features g)) (efz_sym g ++ efz_anti g) -> efz_joint_feature g x (EDiscrete y) = Err IndexError.
Proof. intros A B C L E. exact (joint_out g x y (conj A (conj B (conj C (conj L E))))). Qed.
(** ... also when the checks accept it. *)
Theorem C97_range_refuted k F D x y : let g := EFZ k F D [(- Z.of_nat D - 1)%Z] [] in
  mcols (ex_features x) = F -> length (ex_edges x) = mrows (ex_edge_features x) -> mcols (ex_edge_features x) = D ->
  labelling (mrows (ex_features x)) k y -> graph_edges (mrows (ex_features x)) (ex_edges x) ->
  efz_check_declared g = Ok tt /\ efz_joint_feature g x (EDiscrete y) = Err IndexError.
Proof.
  intros g A B C L E. split.
  - apply check_iff. split; [constructor; [cbn; lia|constructor]|intros z _ []].
  - apply joint_out; [exact (conj A (conj B (conj C (conj L E))))|]. intro Q. apply Forall_inv in Q. unfold in_range in Q. cbn in Q. lia.
Qed.
(** An edge feature that is meant by both lists vanishes from joint_feature, ... *)
Theorem C97_dead_feature g x y f : mcols (ex_features x) = efz_features g -> length (ex_edges x) = mrows (ex_edge_features x) -> mcols (ex_edge_features x) = efz_edge_features g ->
  labelling (mrows (ex_features x)) (efz_states g) y -> graph_edges (mrows (ex_features x)) (ex_edges x) ->
  Forall (in_range (efz_edge_features g)) (efz_sym g ++ efz_anti g) ->
  In f (map (meant (efz_edge_features g)) (efz_sym g)) -> In f (map (meant (efz_edge_features g)) (efz_anti g)) ->
  exists psi, efz_joint_feature g x (EDiscrete y) = Ok psi /\ length psi = (efz_states g * efz_features g + efz_edge_features g * (efz_states g * efz_states g))%nat /\
  forall s t, (s < efz_states g)%nat -> (t < efz_states g)%nat -> edge_weight (efz_states g) (efz_features g) psi f s t = 0.
Proof. intros A B C L E. exact (joint_dead g x y f (conj A (conj B (conj C (conj L E))))). Qed.
(** ... and the checks accept the last feature as D - 1 in one list and -1 in the other. *)
Theorem C97_disjoint_refuted k F D x y : let g := EFZ k F (S D) [Z.of_nat D] [(-1)%Z] in
  mcols (ex_features x) = F -> length (ex_edges x) = mrows (ex_edge_features x) -> mcols (ex_edge_features x) = S D ->
  labelling (mrows (ex_features x)) k y -> graph_edges (mrows (ex_features x)) (ex_edges x) ->
  efz_check_declared g = Ok tt /\ exists psi, efz_joint_feature g x (EDiscrete y) = Ok psi /\
  forall s t, (s < k)%nat -> (t < k)%nat -> edge_weight k F psi D s t = 0.
Proof.
  intros g A B C L E. split.
  - apply check_iff. split; [|intros z [<-|[]] [Q|[]]; lia]. constructor; [cbn [efz_edge_features g]; lia|]. constructor; [cbn [efz_edge_features g]; lia|constructor].
  - destruct (joint_dead g x y D (conj A (conj B (conj C (conj L E))))) as [psi [P1 [_ P2]]]; [| | |exists psi; split; [exact P1|exact P2]].
    + constructor; [unfold in_range; cbn [efz_edge_features g]; lia|]. constructor; [unfold in_range; cbn [efz_edge_features g]; lia|constructor].
    + left. unfold meant. cbn [efz_edge_features g]. destruct (Z.ltb_spec (Z.of_nat D) 0); lia.
    + left. unfold meant. cbn [efz_edge_features g]. destruct (Z.ltb_spec (-1) 0); lia.
Qed.

(** ** The hypotheses are met *)
Example C97_met : mcols (ex_features ex61_x) = 1%nat /\ length (ex_edges ex61_x) = mrows (ex_edge_features ex61_x) /\ mcols (ex_edge_features ex61_x) = 2%nat /\
  labelling (mrows (ex_features ex61_x)) 2 [0; 1]%nat /\ graph_edges (mrows (ex_features ex61_x)) (ex_edges ex61_x).
Proof. split; [reflexivity|]. split; [reflexivity|]. split; [reflexivity|]. split; [split; [reflexivity|repeat constructor]|]. repeat constructor. Qed.
(** the second feature on its own: antisymmetric, symmetric, both; and an index out of range *)
Example C97_values :
  let out g := match efz_joint_feature g ex61_x (EDiscrete [0; 1]%nat) with Ok psi => Ok (map this psi) | Err e => Err e end in
  out (EFZ 2 1 2 [] [(-1)%Z]) = Ok [1; 1; 0; 1; 0; 0; 0; 1 # 2; -1 # 2; 0]%Q /\ out (EFZ 2 1 2 [(-1)%Z] []) = Ok [1; 1; 0; 1; 0; 0; 0; 1 # 2; 1 # 2; 0]%Q /\
  out (EFZ 2 1 2 [1%Z] [(-1)%Z]) = Ok [1; 1; 0; 1; 0; 0; 0; 0; 0; 0]%Q /\ out (EFZ 2 1 2 [(-3)%Z] []) = Err IndexError /\
  efz_check_declared (EFZ 2 1 2 [2%Z] []) = Err ValueError /\ efz_check_declared (EFZ 2 1 2 [1%Z] [1%Z]) = Err ValueError.
Proof. vm_compute. repeat split; reflexivity. Qed.

Print Assumptions C97_check.
Print Assumptions C97_meant.
Print Assumptions C97_nonnegative.
Print Assumptions C97_out_of_range.
Print Assumptions C97_range_refuted.
Print Assumptions C97_dead_feature.
Print Assumptions C97_disjoint_refuted.
