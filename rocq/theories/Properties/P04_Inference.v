(** C08, C09, C47, C48, C52: LP relaxation, unary inference, dispatch, AD3 decoding, QPBO. *)
From Coq Require Import String.
From Verif Require Import Model.LP Model.Inference Spec.Energy Spec.SolverSpec Spec.LocalPolytope Spec.LPSpec Spec.InferenceSpec Spec.DispatchSpec
  Proofs.Arrays Proofs.LPProofs Proofs.LPProofs2 Proofs.InferenceProofs Proofs.DispatchProofs Proofs.OgmProofs.
Local Open Scope string_scope.
Local Open Scope list_scope.

(** C08. The problem handed to the LP solver: its feasible points are exactly the local polytope
    (one row per edge is left out without loss), its objective is minus the expected score, every
    labelling is a feasible point whose objective is minus the labelling's score. *)
Theorem C08_lp_is_the_local_polytope :
  forall U p edges n k,
    mat_ok U -> mrows U = n -> mcols U = k -> (0 < n)%nat -> (0 < k)%nat ->
    graph_edges n edges -> pw_ok p -> pw_shape p (length edges) k ->
    exists pws pb,
      validate_params U p (length edges) = Ok (k, pws) /\
      lp_build (mat_neg U) edges (map (map (map Qcopp)) pws) = Ok pb /\
      lp_rows pb = (n + length edges * (2 * k - 1))%nat /\
      (forall x, feasible pb x <->
         length x = (n * k + length edges * (k * k))%nat /\ local_polytope n k edges (var_mu k x) (var_nu n k x)) /\
      (forall x, feasible pb x ->
         dot (lp_c pb) x = - marginal_score n k edges (mget U) (pw_table p) (var_mu k x) (var_nu n k x)) /\
      (forall y, labelling n k y -> exists x, feasible pb x /\ dot (lp_c pb) x = - score n edges (mget U) (pw_table p) (lab y) /\
         (forall i s, (i < n)%nat -> (s < k)%nat -> var_mu k x i s = one_hot_mu (lab y) i s)).
Proof. exact lp_problem_ok. Qed.

(** C08. What inference_lp returns when the solver returns an optimum of that problem. *)
Theorem C08_inference_lp :
  forall solve U p edges n k pws pb x (relaxed : bool),
    mat_ok U -> mrows U = n -> mcols U = k -> (0 < n)%nat -> (0 < k)%nat ->
    graph_edges n edges -> pw_ok p -> pw_shape p (length edges) k ->
    validate_params U p (length edges) = Ok (k, pws) ->
    lp_build (mat_neg U) edges (map (map (map Qcopp)) pws) = Ok pb ->
    solve pb = Ok x -> optimal pb x ->
    exists a e, inference_lp solve U p edges relaxed = Ok (a, e) /\
      (forall y, labelling n k y -> score n edges (mget U) (pw_table p) (lab y) <= - e) /\
      if relaxed
      then exists um pm, a = Marginals um pm /\ mrows um = n /\ mcols um = k /\
             mrows pm = length edges /\ mcols pm = (k * k)%nat /\
             local_polytope n k edges (mget um) (fun e s t => mget pm e (s * k + t)) /\
             marginal_score n k edges (mget U) (pw_table p) (mget um) (fun e s t => mget pm e (s * k + t)) = - e /\
             (forall mu nu, local_polytope n k edges mu nu ->
                marginal_score n k edges (mget U) (pw_table p) mu nu <= - e)
      else exists y, a = Labels y /\ labelling n k y /\
             ((forall i s, (i < n)%nat -> (s < k)%nat -> var_mu k x i s = 0 \/ var_mu k x i s = 1) ->
              maximiser n k edges (mget U) (pw_table p) y /\ score n edges (mget U) (pw_table p) (lab y) = - e).
Proof. exact inference_lp_ok. Qed.

(** C08. Integral points of the polytope are the labellings. *)
Theorem C08_integral_points :
  forall n k edges mu nu y, (0 < k)%nat -> local_polytope n k edges mu nu ->
    (forall i s, (i < n)%nat -> (s < k)%nat -> mu i s = 0 \/ mu i s = 1) ->
    labelling n k y -> (forall i s, (i < n)%nat -> (s < k)%nat -> mu i s <= mu i (lab y i)) ->
    forall i s, (i < n)%nat -> (s < k)%nat -> mu i s = one_hot_mu (lab y) i s.
Proof. exact integral_decode. Qed.

(** solve_lp is the relaxed inference_lp with one matrix for all edges and the signs changed; other
    shapes are refused. *)
Theorem C08_solve_lp :
  forall solve U edges P,
    (mrows P = mcols U -> mcols P = mcols U ->
     inference_lp solve U (Pw2 P) edges true =
       match solve_lp solve (mat_neg U) edges (mat_neg P) with Ok (um, pm, e) => Ok (Marginals um pm, e) | Err e => Err e end) /\
    (mrows P <> mcols U \/ mcols P <> mcols U -> solve_lp solve U edges P = Err ValueError).
Proof. exact solve_lp_neg. Qed.

(** C09. *)
Theorem C09_unaries_argmax :
  forall U p edges n k, mrows U = n -> mcols U = k -> (0 < k)%nat -> pw_shape p (length edges) k ->
    exists y, inference_unaries U p edges = Ok y /\ labelling n k y /\
      (forall i s, (i < n)%nat -> (s < k)%nat -> mget U i s <= mget U i (lab y i)) /\
      (forall i s, (i < n)%nat -> (s < lab y i)%nat -> mget U i s < mget U i (lab y i)).
Proof. exact unaries_ok. Qed.
Theorem C09_unaries_exact_for_constant_pairwise :
  forall U p edges n k c, mrows U = n -> mcols U = k -> (0 < k)%nat -> graph_edges n edges -> pw_shape p (length edges) k ->
    (forall e s t, (e < length edges)%nat -> (s < k)%nat -> (t < k)%nat -> pw_table p e s t = c e) ->
    exists y, inference_unaries U p edges = Ok y /\ maximiser n k edges (mget U) (pw_table p) y.
Proof. exact unaries_exact. Qed.
Theorem C09_unaries_gap :
  forall U p edges n k (lo hi : nat -> Qc),
    mrows U = n -> mcols U = k -> (0 < k)%nat -> graph_edges n edges -> pw_shape p (length edges) k ->
    (forall e s t, (e < length edges)%nat -> (s < k)%nat -> (t < k)%nat -> lo e <= pw_table p e s t /\ pw_table p e s t <= hi e) ->
    exists y, inference_unaries U p edges = Ok y /\ labelling n k y /\
      forall y', labelling n k y' ->
        score n edges (mget U) (pw_table p) (lab y') <=
        score n edges (mget U) (pw_table p) (lab y) + sumn (length edges) (fun e => hi e - lo e).
Proof. exact unaries_gap. Qed.
Theorem C09_bad_shape_rejected :
  forall U p edges, ~ pw_shape p (length edges) (mcols U) -> pw_ok p -> inference_unaries U p edges = Err ValueError.
Proof. exact unaries_bad_shape. Qed.

(** C47. Options given with the method override those of the call, key by key. *)
Theorem C47_options_override :
  forall b pb s opts re kw merged,
    (forall k, kw_get merged k = match kw_get opts k with Some v => Some v | None => kw_get kw k end) ->
    inference_dispatch b pb (WithOptions s opts) re kw = inference_dispatch b pb (Name s) re merged.
Proof. exact dispatch_options. Qed.
Theorem C47_unknown_method :
  forall b pb m re kw,
    ~ In (method_name m) ["qpbo"; "lp"; "ad3"; "ad3+"; "ogm"; "unary"; "max-product"] ->
    inference_dispatch b pb m re kw = Err ValueError.
Proof. exact dispatch_unknown. Qed.
(** An energy comes back exactly if it was asked for and the method is one of these four. *)
Theorem C47_energy_returned :
  forall b pb m re kw r e, inference_dispatch b pb m re kw = Ok (r, e) ->
    (e <> None <-> re = true /\ In (method_name m) ["lp"; "ad3"; "ad3+"; "ogm"]).
Proof. exact dispatch_energy. Qed.
(** 'ogm' hands the negated potentials to OpenGM: when the library minimises energies, the labels maximise the score, and
    the energy is minus their score. *)
Theorem C47_ogm_energy :
  forall b solve U p edges n k alg kw, b_ogm b = Some solve -> mat_ok U -> mrows U = n -> mcols U = k -> pw_shape p (length edges) k ->
    graph_edges n edges -> In alg ogm_algs ->
    (forall init V q, mat_ok V -> mrows V = n -> mcols V = k -> length q = length edges ->
       exists y, solve alg init V q edges = Ok y /\ labelling n k y /\
         forall z, labelling n k z ->
           (score n edges (mget V) (fun e => get2 (nth e q [])) (lab y) <= score n edges (mget V) (fun e => get2 (nth e q [])) (lab z))%Qc) ->
    kw = [("alg", VStr alg)] \/ (alg = "dd" /\ kw = []) ->
    forall re, exists y, inference_dispatch b (Single U p edges) (Name "ogm") re kw =
        Ok (RLabels y, if re then Some (- score n edges (mget U) (pw_table p) (lab y))%Qc else None) /\
      maximiser n k edges (mget U) (pw_table p) y.
Proof. exact ogm_dispatch. Qed.
Theorem C47_return_energy_ignored :
  forall b pb m kw, In (method_name m) ["qpbo"; "unary"; "max-product"] ->
    inference_dispatch b pb m true kw = inference_dispatch b pb m false kw.
Proof. exact dispatch_energy_ignored. Qed.
Theorem C47_only_labels :
  forall b pb m re kw r e, In (method_name m) ["qpbo"; "unary"; "max-product"; "ogm"] ->
    inference_dispatch b pb m re kw = Ok (r, e) -> exists y, r = RLabels y.
Proof. exact dispatch_labels. Qed.
(** Hard logic constraints are dropped without a word by four methods and rejected by two. *)
Theorem C47_constraints_ignored :
  forall b pb m re kw c, In (method_name m) ["qpbo"; "lp"; "ogm"; "unary"] ->
    inference_dispatch b pb m re (("constraints", c) :: kw) = inference_dispatch b pb m re kw.
Proof. exact dispatch_constraints_ignored. Qed.
Theorem C47_constraints_rejected :
  forall b pb m re kw c, In (method_name m) ["ad3"; "max-product"] ->
    inference_dispatch b pb m re (("constraints", c) :: kw) = Err TypeError.
Proof. exact dispatch_constraints_rejected. Qed.
Theorem C47_get_installed :
  forall b l,
    (forall m, In m l -> available b m = true -> is_ok (inference_dispatch b (trivial_problem m) (Name m) false []) = true) ->
    get_installed b (Some l) = Ok (filter (available b) l).
Proof. exact get_installed_ok. Qed.

(** C48. Several node types: marginals, labels in the range of the node's type, or the exception. *)
Theorem C48_multi_type_decoding :
  forall b lib Us ps edges relaxed bnb cons exc (plus : bool) ums pms energy st,
    b_ad3 b = Some lib ->
    (if plus then ad3_constraineds lib Us edges ps cons bnb else ad3_graphs lib Us edges ps bnb) = Ok (ums, pms, energy, st) ->
    (forall m, In m ums -> (0 < mrows m)%nat -> (0 < mcols m)%nat) -> ums <> [] ->
    match (if plus then inference_ad3plus b (Multi Us ps edges) relaxed bnb cons exc
           else inference_ad3 b (Multi Us ps edges) relaxed bnb exc) with
    | Ok (RMarginalsList ums' pms', e) => (st = Fractional \/ st = Unsolved) /\ relaxed = true /\ ums' = ums /\ pms' = pms /\ e = - energy
    | Ok (RLabels y, e) =>
        e = - energy /\ (st = Integral \/ st = Infeasible \/ (relaxed = false /\ exc = false)) /\
        length y = list_sum (map mrows ums) /\
        forall j i, (j < length ums)%nat -> (i < mrows (nth j ums (Mat 0 0 [])))%nat ->
          exists s, (s < mcols (nth j ums (Mat 0 0 [])))%nat /\
            nth (before mrows ums j + i) y O = (before mcols ums j + s)%nat /\
            (forall t, (t < mcols (nth j ums (Mat 0 0 [])))%nat ->
               mget (nth j ums (Mat 0 0 [])) i t <= mget (nth j ums (Mat 0 0 [])) i s)
    | Ok (RMarginals _ _, _) => False
    | Err ex => ex = InferenceException /\ (st = Fractional \/ st = Unsolved) /\ relaxed = false /\ exc = true
    end.
Proof. exact multi_decoding. Qed.
(** One node type: plain AD3 never raises, whatever inference_exception says. *)
Theorem C48_ad3_single_type :
  forall b lib U p edges relaxed bnb exc n k um pm energy st,
    b_ad3 b = Some lib -> mrows U = n -> mcols U = k -> (0 < k)%nat -> pw_shape p (length edges) k ->
    (forall pws, ad3_graph lib U edges pws bnb = Ok (um, pm, energy, st)) ->
    mat_ok um -> mrows um = n -> mcols um = k ->
    match inference_ad3 b (Single U p edges) relaxed bnb exc with
    | Ok (RMarginals um' pm', e) => (st = Fractional \/ st = Unsolved) /\ relaxed = true /\ um' = um /\ pm' = pm /\ e = - energy
    | Ok (RLabels y, e) =>
        e = - energy /\ (st = Integral \/ st = Infeasible \/ relaxed = false) /\
        labelling n k y /\ forall i s, (i < n)%nat -> (s < k)%nat -> mget um i s <= mget um i (lab y i)
    | _ => False
    end.
Proof. exact ad3_single. Qed.
Theorem C48_ad3plus_single_type :
  forall b lib U p edges relaxed bnb cons exc n k um pm energy st,
    b_ad3 b = Some lib -> (0 < k)%nat ->
    ad3_constrained lib U edges p cons bnb = Ok (um, pm, energy, st) -> mrows um = n -> mcols um = k ->
    match inference_ad3plus b (Single U p edges) relaxed bnb cons exc with
    | Ok (RMarginals um' pm', e) => (st = Fractional \/ st = Unsolved) /\ relaxed = true /\ um' = um /\ pm' = pm /\ e = - energy
    | Ok (RLabels y, e) =>
        e = - energy /\ (st = Integral \/ st = Infeasible \/ (relaxed = false /\ exc = false)) /\
        labelling n k y /\ forall i s, (i < n)%nat -> (s < k)%nat -> mget um i s <= mget um i (lab y i)
    | Ok (RMarginalsList _ _, _) => False
    | Err ex => ex = InferenceException /\ (st = Fractional \/ st = Unsolved) /\ relaxed = false /\ exc = true
    end.
Proof. exact ad3plus_single. Qed.

(** C52. *)
Theorem C52_qpbo_quantisation_error :
  forall b solve U p edges n k,
    b_qpbo b = Some solve -> mat_ok U -> mrows U = n -> mcols U = k -> graph_edges n edges -> pw_ok p -> pw_shape p (length edges) k ->
    (forall i s, (i < n)%nat -> (s < k)%nat -> fits_int32 (mget U i s)) ->
    (forall e s t, (e < length edges)%nat -> (s < k)%nat -> (t < k)%nat -> fits_int32 (pw_table p e s t)) ->
    exists Ui Pi, inference_qpbo b U p edges = solve edges Ui Pi /\
      (forall i s, (i < n)%nat -> (s < k)%nat -> zget Ui i s = trunc (- ofZ 1000 * mget U i s)) /\
      forall y, int_minimiser n k edges Ui Pi y ->
        forall y', labelling n k y' ->
          score n edges (mget U) (pw_table p) (lab y') <=
          score n edges (mget U) (pw_table p) (lab y) + ofN (n + length edges) / ofZ 500.
Proof. exact qpbo_near_optimal. Qed.
(** Outside the int32 range the loss is unbounded, however the conversion treats such numbers. *)
Theorem C52_qpbo_overflow_refuted :
  forall (b : backends) solve (K : Z),
    b_qpbo b = Some solve -> (forall z, (int32_min <= b_int32 b z <= int32_max)%Z) -> (0 < K)%Z ->
    exists U Ui y y', mat_ok U /\ mrows U = 1%nat /\ mcols U = 2%nat /\
      inference_qpbo b U (Pw2 (mat_zeros 2 2)) [] = solve [] Ui [] /\
      int_minimiser 1 2 [] Ui [] y /\ labelling 1 2 y' /\
      score 1 [] (mget U) (fun _ _ _ => 0) (lab y) + ofZ K < score 1 [] (mget U) (fun _ _ _ => 0) (lab y').
Proof. exact qpbo_overflow. Qed.

(** ** Concrete cases *)
Definition p4_U : mat := Mat 2 2 [[ofZ 3; 0]; [0; 1]].
Definition p4_p : pairwise := Pw2 (Mat 2 2 [[1; 0]; [0; 1]]).
Definition p4_x : list Qc := [1; 0; 1; 0; 1; 0; 0; 0].      (* one-hot of labels 0, 0 *)
Definition p4_solve : lp_solver := fun pb => if (lp_vars pb =? 1)%nat then Ok [1] else Ok p4_x.
Example C08_solve_lp_computed :
  match solve_lp p4_solve (mat_neg p4_U) [(0, 1)]%nat (mat_neg (Mat 2 2 [[1; 0]; [0; 1]])) with Ok (um, _, e) => (map (map this) (mdat um), this e) | _ => ([], 0%Q) end
  = ([[1; 0]; [1; 0]]%Q, (-4 # 1)%Q) /\
  solve_lp p4_solve (mat_neg p4_U) [(0, 1)]%nat (Mat 2 3 [[1; 0; 0]; [0; 1; 0]]) = Err ValueError.
Proof. split; vm_compute; reflexivity. Qed.
Example C08_value :
  match inference_lp p4_solve p4_U p4_p [(0, 1)]%nat false with Ok (Labels y, e) => (y, this e) | _ => ([], 0%Q) end
  = ([0; 0]%nat, (-4 # 1)%Q).
Proof. vm_compute. reflexivity. Qed.
Example C08_hypotheses_met :
  mat_ok p4_U /\ graph_edges 2 [(0, 1)]%nat /\ pw_ok p4_p /\ pw_shape p4_p 1 2.
Proof. repeat split; try (apply mat_okb_ok; reflexivity); repeat constructor. Qed.
(** the point above is optimal: any point of the polytope scores at most 4 *)
Example C08_optimum_met :
  exists pws pb, validate_params p4_U p4_p 1 = Ok (2%nat, pws) /\
    lp_build (mat_neg p4_U) [(0, 1)]%nat (map (map (map Qcopp)) pws) = Ok pb /\ optimal pb p4_x.
Proof.
  destruct C08_hypotheses_met as [H1 [H2 [H3 H4]]].
  destruct (lp_problem_ok p4_U p4_p [(0, 1)]%nat 2 2 H1 eq_refl eq_refl ltac:(lia) ltac:(lia) H2 H3 H4)
    as [pws [pb [E1 [E2 [_ [FI [OB _]]]]]]].
  exists pws, pb. split; [exact E1|]. split; [exact E2|].
  assert (F : feasible pb p4_x).
  { apply FI. split; [reflexivity|]. constructor.
    - intros [|[|]] [|[|]] ? ?; try lia; vm_compute; discriminate.
    - intros [|] [|[|]] [|[|]] ? ? ?; simpl in *; try lia; vm_compute; discriminate.
    - intros [|[|]] ?; try lia; apply Qc_is_canon; reflexivity.
    - intros [|] [|[|]] ? ?; simpl in *; try lia; apply Qc_is_canon; reflexivity.
    - intros [|] [|[|]] ? ?; simpl in *; try lia; apply Qc_is_canon; reflexivity. }
  split; [exact F|]. intros z Hz. rewrite (OB z Hz), (OB _ F).
  apply FI in Hz. destruct Hz as [_ [P1 P2 P3 P4 P5]].
  set (mu := var_mu 2 z) in *. set (nu := var_nu 2 2 z) in *.
  replace (marginal_score 2 2 [(0, 1)%nat] (mget p4_U) (pw_table p4_p) (var_mu 2 p4_x) (var_nu 2 2 p4_x)) with (ofZ 4)
    by (apply Qc_is_canon; reflexivity).
  assert (A : marginal_score 2 2 [(0, 1)%nat] (mget p4_U) (pw_table p4_p) mu nu =
     (1 + 1 + 1) * mu 0%nat 0%nat + mu 1%nat 1%nat + (nu 0%nat 0%nat 0%nat + nu 0%nat 1%nat 1%nat)).
  { unfold marginal_score. cbn [length]. repeat (rewrite sumn_S || rewrite sumn_O).
    change (mget p4_U 0 0) with (ofZ 3). change (mget p4_U 0 1) with 0. change (mget p4_U 1 0) with 0. change (mget p4_U 1 1) with 1.
    change (pw_table p4_p 0 0 0) with 1. change (pw_table p4_p 0 0 1) with 0. change (pw_table p4_p 0 1 0) with 0. change (pw_table p4_p 0 1 1) with 1.
    replace (ofZ 3) with (1 + 1 + 1) by (apply Qc_is_canon; reflexivity). ring. }
  rewrite A.
  assert (Q1 := P3 0%nat ltac:(lia)). assert (Q2 := P4 0%nat 0%nat ltac:(simpl; lia) ltac:(lia)).
  assert (Q3 := P4 0%nat 1%nat ltac:(simpl; lia) ltac:(lia)). assert (Q4 := P5 0%nat 0%nat ltac:(simpl; lia) ltac:(lia)).
  assert (Q5 := P5 0%nat 1%nat ltac:(simpl; lia) ltac:(lia)). assert (Q6 := P3 1%nat ltac:(lia)).
  simpl nth in *. simpl fst in *. simpl snd in *. repeat (rewrite sumn_S in * || rewrite sumn_O in * ).
  assert (R1 := P2 0%nat 0%nat 1%nat ltac:(simpl; lia) ltac:(lia) ltac:(lia)).
  assert (R2 := P2 0%nat 1%nat 0%nat ltac:(simpl; lia) ltac:(lia) ltac:(lia)).
  assert (R3 := P2 0%nat 1%nat 1%nat ltac:(simpl; lia) ltac:(lia) ltac:(lia)).
  assert (R4 := P2 0%nat 0%nat 0%nat ltac:(simpl; lia) ltac:(lia) ltac:(lia)).
  set (a := mu 0%nat 0%nat) in *. set (b := mu 0%nat 1%nat) in *. set (c := mu 1%nat 0%nat) in *. set (d := mu 1%nat 1%nat) in *.
  set (n00 := nu 0%nat 0%nat 0%nat) in *. set (n01 := nu 0%nat 0%nat 1%nat) in *. set (n10 := nu 0%nat 1%nat 0%nat) in *. set (n11 := nu 0%nat 1%nat 1%nat) in *.
  clearbody a b c d n00 n01 n10 n11. clear - Q1 Q2 Q3 Q4 Q5 Q6 R1 R2 R3 R4.
  replace (ofZ 4) with (1 + 1 + 1 + 1) by (apply Qc_is_canon; reflexivity).
  replace ((1 + 1 + 1) * a) with (a + a + a) by ring. qclra.
Qed.
Example C09_value : inference_unaries p4_U p4_p [(0, 1)]%nat = Ok [0; 1]%nat.
Proof. vm_compute. reflexivity. Qed.

Definition p4_lib : ad3_lib := Ad3Lib
  (fun U _ _ _ => Ok (U, U, ofZ 5, Integral))
  (fun Us _ _ _ => Ok (Us, [], ofZ 5, Fractional))
  (fun U _ _ _ _ => Ok (U, U, ofZ 5, Fractional))
  (fun Us _ _ _ _ => Ok (Us, [], ofZ 5, Fractional)).
Definition p4_b : backends := Backends p4_solve None (fun _ => int32_min) None (Some p4_lib).
Example C47_values :
  inference_dispatch p4_b (Single p4_U p4_p [(0, 1)]%nat) (WithOptions "unary" [("verbose", VInt 1)]) true [("relaxed", VBool false)]
    = Ok (RLabels [0; 1]%nat, None) /\
  inference_dispatch p4_b (Single p4_U p4_p [(0, 1)]%nat) (Name "dai") true [] = Err ValueError /\
  inference_dispatch p4_b (Single p4_U p4_p [(0, 1)]%nat) (WithOptions "lp" [("return_energy", VBool true)]) false [] = Err TypeError /\
  get_installed p4_b None = Ok ["max-product"; "ad3"; "ad3+"; "lp"].
Proof. repeat split; vm_compute; reflexivity. Qed.
Example C47_ogm_met :
  (forall n k alg init V q, (0 < n)%nat -> (0 < k)%nat -> mat_ok V -> mrows V = n -> mcols V = k -> length q = length (chain_edges n) ->
     exists y, p4_ogm alg init V q (chain_edges n) = Ok y /\ labelling n k y /\
       forall z, labelling n k z ->
         (score n (chain_edges n) (mget V) (fun e => get2 (nth e q [])) (lab y) <= score n (chain_edges n) (mget V) (fun e => get2 (nth e q [])) (lab z))%Qc) /\
  match inference_dispatch (Backends p4_solve None (fun z => z) (Some p4_ogm) None) (Single p4_U p4_p [(0, 1)]%nat) (Name "ogm") true [("alg", VStr "dyn")] with
  | Ok (RLabels y, Some e) => y = [0; 0]%nat /\ this e = this (ofZ (-4))
  | _ => False
  end.
Proof. split; [exact p4_ogm_ok|vm_compute; split; reflexivity]. Qed.
Definition p4_types : list mat := [Mat 1 2 [[0; 1]]; Mat 2 3 [[0; 0; 1]; [1; 0; 0]]].
Example C48_value :
  (let! r := inference_ad3 p4_b (Multi p4_types [] []) false VNone false in Ok (fst r)) = Ok (RLabels [1; 4; 2]%nat) /\
  inference_ad3 p4_b (Multi p4_types [] []) false VNone true = Err InferenceException.
Proof. split; vm_compute; reflexivity. Qed.
Example C48_hypotheses_met : forall m, In m p4_types -> (0 < mrows m)%nat -> (0 < mcols m)%nat.
Proof. simpl. intros m [<-|[<-|[]]]; simpl; lia. Qed.

Example C52_hypotheses_met : forall i s, (i < 2)%nat -> (s < 2)%nat -> fits_int32 (mget p4_U i s).
Proof. intros [|[|]] [|[|]] ? ?; try lia; split; vm_compute; reflexivity. Qed.
Example C52_value : quantise (fun _ => int32_min) [[Q2Qc (12345 # 10000); Q2Qc (-12345 # 10000)]] = [[-1234; 1234]]%Z.
Proof. vm_compute. reflexivity. Qed.

Print Assumptions C08_lp_is_the_local_polytope.
Print Assumptions C08_inference_lp.
Print Assumptions C08_integral_points.
Print Assumptions C08_solve_lp.
Print Assumptions C09_unaries_argmax.
Print Assumptions C09_unaries_exact_for_constant_pairwise.
Print Assumptions C09_unaries_gap.
Print Assumptions C09_bad_shape_rejected.
Print Assumptions C47_options_override.
Print Assumptions C47_unknown_method.
Print Assumptions C47_energy_returned.
Print Assumptions C47_ogm_energy.
Print Assumptions C47_return_energy_ignored.
Print Assumptions C47_only_labels.
Print Assumptions C47_constraints_ignored.
Print Assumptions C47_constraints_rejected.
Print Assumptions C47_get_installed.
Print Assumptions C48_multi_type_decoding.
Print Assumptions C48_ad3_single_type.
Print Assumptions C48_ad3plus_single_type.
Print Assumptions C52_qpbo_quantisation_error.
Print Assumptions C52_qpbo_overflow_refuted.
