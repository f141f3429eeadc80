(** C60: on graphs without cycles the linear programming relaxation is exact. *)
From Coq Require Import String.
From Verif Require Import Model.LP Model.Inference Spec.Energy Spec.SolverSpec Spec.LocalPolytope Spec.LPSpec Spec.MixtureSpec
  Spec.GraphTheory Spec.DispatchSpec Proofs.Arrays Proofs.LPProofs Proofs.LPProofs2 Proofs.ForestLP Proofs.ForestLP2.
Open Scope string_scope. Open Scope Qc_scope.

(** C60. The points of the relaxation are exactly the mixtures of labellings. *)
Theorem C60_forest_polytope :
  forall n k edges mu nu, graph_edges n edges -> acyclic edges ->
    (local_polytope n k edges mu nu <-> exists D, mixture n k edges D mu nu).
Proof. exact forest_polytope_iff. Qed.
(** C60. Their value is the mean of the scores of the labellings (on any graph). *)
Theorem C60_mixture_value :
  forall n k edges U P D mu nu, graph_edges n edges -> mixture n k edges D mu nu ->
    marginal_score n k edges U P mu nu = mean D (fun y => score n edges U P (lab y)).
Proof. exact mixture_score. Qed.
(** C60. inference_lp on a forest with a solver that returns an optimum: the energy is that of the best labelling;
    every returned label is the label of some best labelling; if the best labelling is unique it is returned, and the
    marginals of the relaxed call are its indicators. *)
Theorem C60_inference_lp_exact :
  forall solve U p edges n k pws pb x,
    mat_ok U -> mrows U = n -> mcols U = k -> (0 < n)%nat -> (0 < k)%nat ->
    graph_edges n edges -> acyclic edges -> pw_ok p -> pw_shape p (length edges) k ->
    validate_params U p (length edges) = Ok (k, pws) ->
    lp_build (mat_neg U) edges (map (map (map Qcopp)) pws) = Ok pb ->
    solve pb = Ok x -> optimal pb x ->
    exists y e um pm, inference_lp solve U p edges false = Ok (Labels y, e) /\
      inference_lp solve U p edges true = Ok (Marginals um pm, e) /\
      labelling n k y /\
      (exists ys, maximiser n k edges (mget U) (pw_table p) ys /\ score n edges (mget U) (pw_table p) (lab ys) = - e) /\
      (forall i, (i < n)%nat -> exists y', maximiser n k edges (mget U) (pw_table p) y' /\ lab y' i = lab y i) /\
      (forall ys, maximiser n k edges (mget U) (pw_table p) ys ->
         (forall z, maximiser n k edges (mget U) (pw_table p) z -> z = ys) ->
         y = ys /\ forall i s, (i < n)%nat -> (s < k)%nat -> mget um i s = one_hot_mu (lab ys) i s).
Proof. exact inference_lp_forest. Qed.
(** C60. inference_ad3 on a forest, when the library's marginals are an optimum of the relaxation. *)
Theorem C60_ad3_exact :
  forall b lib U p edges relaxed bnb exc n k pws um pm energy st,
    b_ad3 b = Some lib -> mat_ok U -> mrows U = n -> mcols U = k -> (0 < k)%nat ->
    graph_edges n edges -> acyclic edges ->
    validate_params U p (length edges) = Ok (k, pws) ->
    ad3_graph lib U edges pws bnb = Ok (um, pm, energy, st) ->
    mat_ok um -> mrows um = n -> mcols um = k ->
    local_polytope n k edges (mget um) (fun e s t => mget pm e (s * k + t)) ->
    (forall mu nu, local_polytope n k edges mu nu ->
       marginal_score n k edges (mget U) (pw_table p) mu nu <=
       marginal_score n k edges (mget U) (pw_table p) (mget um) (fun e s t => mget pm e (s * k + t))) ->
    (relaxed = false \/ st = Integral) ->
    exists y, inference_ad3 b (Single U p edges) relaxed bnb exc = Ok (RLabels y, - energy) /\
      labelling n k y /\
      (forall i, (i < n)%nat -> exists y', maximiser n k edges (mget U) (pw_table p) y' /\ lab y' i = lab y i) /\
      (forall ys, maximiser n k edges (mget U) (pw_table p) ys ->
         (forall z, maximiser n k edges (mget U) (pw_table p) z -> z = ys) -> y = ys).
Proof. exact ad3_forest. Qed.
(** C60. With a cycle the relaxation is not exact: on a triangle that rewards disagreement, whatever optimum the solver
    returns, the reported value exceeds the score of every labelling by at least 1. *)
Theorem C60_cycle_refuted :
  forall solve pws pb x relaxed,
    validate_params (ex21_U 3) ex21_p 3 = Ok (2%nat, pws) ->
    lp_build (mat_neg (ex21_U 3)) ex21_triangle (map (map (map Qcopp)) pws) = Ok pb ->
    solve pb = Ok x -> optimal pb x ->
    exists a e, inference_lp solve (ex21_U 3) ex21_p ex21_triangle relaxed = Ok (a, e) /\
      forall y, labelling 3 2 y -> score 3 ex21_triangle (mget (ex21_U 3)) (pw_table ex21_p) (lab y) + 1 <= - e.
Proof. exact ex21_triangle_gap. Qed.
(** C60. Without uniqueness the labels returned on a forest need not be a best labelling: one edge rewarding
    disagreement, and an optimum in which every marginal is one half. *)
Theorem C60_ties_refuted :
  exists pws pb, validate_params (ex21_U 2) ex21_p 1 = Ok (2%nat, pws) /\
    lp_build (mat_neg (ex21_U 2)) [(0, 1)]%nat (map (map (map Qcopp)) pws) = Ok pb /\
    optimal pb ex21_x /\
    inference_lp ex21_solve (ex21_U 2) ex21_p [(0, 1)]%nat false = Ok (Labels [0; 0]%nat, - (1)) /\
    score 2 [(0, 1)]%nat (mget (ex21_U 2)) (pw_table ex21_p) (lab [0; 0]%nat) = 0 /\
    score 2 [(0, 1)]%nat (mget (ex21_U 2)) (pw_table ex21_p) (lab [0; 1]%nat) = 1.
Proof. exact ex21_ties. Qed.

(** The hypotheses are met: C08_optimum_met in P04_Inference gives an optimum on a single edge, ... *)
Example C60_acyclic_met : graph_edges 2 [(0, 1)]%nat /\ acyclic [(0, 1)]%nat.
Proof.
  split; [repeat constructor|]. intros e a b H. destruct e as [|[|e]]; try discriminate H. injection H as <- <-.
  cbn [firstn skipn app]. intros C.
  assert (Q : forall x y, connected [] x y -> x = y).
  { intros x y R. induction R; [contradiction|reflexivity|auto|congruence]. }
  specialize (Q _ _ C). discriminate.
Qed.
(** ... and so does C60_ties_refuted.  A mixture on that edge: *)
Example C60_mixture_met :
  mixture 2 2 [(0, 1)]%nat [(ex21_half, [0; 1]%nat); (ex21_half, [1; 0]%nat)] (fun _ _ => ex21_half) ex21_nu.
Proof.
  repeat split.
  - repeat constructor; vm_compute; try discriminate; repeat constructor.
  - apply Qc_is_canon. vm_compute. reflexivity.
  - intros [|[|]] [|[|]] ? ?; try lia; apply Qc_is_canon; vm_compute; reflexivity.
  - intros [|] [|[|]] [|[|]] ? ? ?; simpl in *; try lia; apply Qc_is_canon; vm_compute; reflexivity.
Qed.
(** The library's answer required by C60_ad3_exact exists, too: the indicators of the labelling 0, 1. *)
Definition p21_lib : ad3_lib :=
  Ad3Lib (fun _ _ _ _ => Ok (Mat 2 2 [[1; 0]; [0; 1]], Mat 1 4 [[0; 1; 0; 0]], 1, Integral))
         (fun _ _ _ _ => Err NotImplementedError) (fun _ _ _ _ _ => Err NotImplementedError) (fun _ _ _ _ _ => Err NotImplementedError).
Example C60_ad3_met :
  local_polytope 2 2 [(0, 1)]%nat (mget (Mat 2 2 [[1; 0]; [0; 1]])) (fun e s t => mget (Mat 1 4 [[0; 1; 0; 0]]) e (s * 2 + t)) /\
  (forall mu nu, local_polytope 2 2 [(0, 1)]%nat mu nu ->
     marginal_score 2 2 [(0, 1)]%nat (mget (ex21_U 2)) (pw_table ex21_p) mu nu <=
     marginal_score 2 2 [(0, 1)]%nat (mget (ex21_U 2)) (pw_table ex21_p)
       (mget (Mat 2 2 [[1; 0]; [0; 1]])) (fun e s t => mget (Mat 1 4 [[0; 1; 0; 0]]) e (s * 2 + t))).
Proof.
  destruct C60_acyclic_met as [G A]. split.
  - constructor.
    + intros [|[|]] [|[|]] ? ?; try lia; vm_compute; discriminate.
    + intros [|] [|[|]] [|[|]] ? ? ?; simpl in *; try lia; vm_compute; discriminate.
    + intros [|[|]] ?; try lia; apply Qc_is_canon; reflexivity.
    + intros [|] [|[|]] ? ?; simpl in *; try lia; apply Qc_is_canon; reflexivity.
    + intros [|] [|[|]] ? ?; simpl in *; try lia; apply Qc_is_canon; reflexivity.
  - intros mu nu L. destruct (forest_lp_value 2 2 [(0, 1)]%nat (mget (ex21_U 2)) (pw_table ex21_p) mu nu G A L) as (y & [Ly Fy] & H).
    eapply Qcle_trans; [exact H|]. clear H L. destruct y as [|a [|b [|]]]; try discriminate Ly.
    inversion Fy as [|p q A0 F0]; subst. inversion F0 as [|p q A1 F1]; subst. clear - A0 A1.
    destruct a as [|[|]]; try lia; destruct b as [|[|]]; try lia; vm_compute; discriminate.
Qed.

Print Assumptions C60_forest_polytope.
Print Assumptions C60_mixture_value.
Print Assumptions C60_inference_lp_exact.
Print Assumptions C60_ad3_exact.
Print Assumptions C60_cycle_refuted.
Print Assumptions C60_ties_refuted.
