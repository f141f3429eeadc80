(** C21, C22: find_constraint and the training objective. *)
From Coq Require Import ZArith.
From Verif Require Import Model.Instances Spec.TaskSpec Spec.TaskInstances Spec.SolverSpec Spec.GraphSpec
  Proofs.Arrays Proofs.GraphCRFProofs Proofs.UnstructuredProofs2 Proofs.LearnerProofs Proofs.InstanceProofs.

(** ** C21 *)
(** For every model and task: whatever find_constraint is given, the slack is not negative. *)
Theorem C21_slack_nonnegative :
  forall (X Y : Type) (m : smodel X Y) (x : X) (y : Y) (w : list Qc) (yo : option Y) (b : bool)
         (yh : Y) (delta : list Qc) (s l : Qc),
    find_constraint m x y w yo b = Ok (yh, delta, s, l) -> 0 <= s.
Proof. exact (fun X Y m x y w yo b yh delta s l => find_constraint_slack_nonneg m x y w yo b (yh, delta, s, l)). Qed.

(** With exact loss-augmented inference the slack is the structured hinge loss: the maximum over
    all allowed y' of loss(y, y') - dot(w, joint_feature(x, y) - joint_feature(x, y')). *)
Theorem C21_slack_is_hinge :
  forall (X Y : Type) (m : smodel X Y) (T : task X Y) (d : nat) (x : X) (y : Y) (w : list Qc),
    implements m T d x y -> length w = d -> exact_laug m T w x y ->
    exists yh s,
      find_constraint m x y w None true =
        Ok (yh, vsub (t_feat T x y) (t_feat T x yh), s, t_loss T y yh) /\
      sm_laug m x y w = Ok yh /\ t_label T x yh /\
      s = t_loss T y yh - dot w (vsub (t_feat T x y) (t_feat T x yh)) /\
      0 <= s /\ is_hinge T w x y s.
Proof. exact (fun X Y => @find_constraint_hinge X Y). Qed.

(** With an allowed but not necessarily optimal answer it is a lower bound of the hinge loss. *)
Theorem C21_slack_inexact :
  forall (X Y : Type) (m : smodel X Y) (T : task X Y) (d : nat) (x : X) (y : Y) (w : list Qc) (yh : Y) (h : Qc),
    implements m T d x y -> length w = d -> sm_laug m x y w = Ok yh -> t_label T x yh ->
    is_hinge T w x y h ->
    exists s,
      find_constraint m x y w None true =
        Ok (yh, vsub (t_feat T x y) (t_feat T x yh), s, t_loss T y yh) /\ 0 <= s /\ s <= h.
Proof. exact (fun X Y => @find_constraint_inexact X Y). Qed.

(** The hinge loss bounds the loss of every best-scoring prediction. *)
Theorem C21_hinge_bounds_prediction_loss :
  forall (X Y : Type) (m : smodel X Y) (T : task X Y) (w : list Qc) (x : X) (y : Y) (h : Qc),
    t_label T x y -> is_hinge T w x y h ->
    forall yp, t_label T x yp ->
      (forall y', t_label T x y' -> dot w (t_feat T x y') <= dot w (t_feat T x yp)) ->
      t_loss T y yp <= h.
Proof. exact (fun X Y => @hinge_bounds_prediction X Y). Qed.

(** Hence the objective bounds C * (training loss of the predictions) + |w|^2 / 2. *)
Theorem C21_objective_bounds_training_loss :
  forall (X Y : Type) (m : smodel X Y) (T : task X Y) (d : nat) (w : list Qc) (Xs : list X) (Ys : list Y)
         (C : Qc) (v : slack_variant),
    length Xs = length Ys -> Xs <> [] -> length w = d -> 0 <= C ->
    (forall p, In p (combine Xs Ys) ->
       implements m T d (fst p) (snd p) /\ exact_laug m T w (fst p) (snd p) /\ exact_inference m T w (fst p)) ->
    exists r Yp,
      objective_primal m w Xs Ys C v = Ok r /\
      mapM (fun x => sm_inference m x w) Xs = Ok Yp /\
      C * lsum (zipw (t_loss T) Ys Yp) + normsq w / (1 + 1) <= r.
Proof. exact (fun X Y => @objective_bounds_loss X Y). Qed.

(** GraphCRF with an exact solver, and ChainCRF as shipped, meet the hypotheses. *)
Theorem C21_graphcrf_implements_task :
  forall (solve : solver) (g : graph_crf) (cw : list Qc) (x : graph_x) (y : list nat) (w : list Qc),
    exact_solver_on solve (mrows (gx_features x)) (gx_edges x) ->
    mat_ok (gx_features x) -> mcols (gx_features x) = g_features g ->
    graph_edges (mrows (gx_features x)) (gx_edges x) ->
    length w = g_size g -> (0 < g_states g)%nat -> length cw = g_states g ->
    labelling (mrows (gx_features x)) (g_states g) y ->
    implements (g_smodel solve g cw) (g_task g cw) (g_size g) x y /\
    exact_laug (g_smodel solve g cw) (g_task g cw) w x y /\
    exact_inference (g_smodel solve g cw) (g_task g cw) w x.
Proof.
  exact (fun solve g cw x y w Hs H1 H2 H3 Hw Hk Hc Hy =>
    conj (g_implements solve g cw x y (Build_valid_x g x H1 H2 H3) Hc Hy)
      (conj (g_exact_laug solve g cw x y w Hs (Build_valid_x g x H1 H2 H3) Hw Hk Hc Hy)
            (g_exact_inference solve g cw x w Hs (Build_valid_x g x H1 H2 H3) Hw Hk))).
Qed.

Theorem C21_chaincrf_implements_task :
  forall (g : graph_crf) (cw : list Qc) (x : mat) (y : list nat) (w : list Qc),
    mat_ok x -> mcols x = g_features g -> (0 < mrows x)%nat -> (0 < g_states g)%nat ->
    length w = g_size g -> length cw = g_states g -> labelling (mrows x) (g_states g) y ->
    implements (chain_smodel g cw) (chain_task g cw) (g_size g) x y /\
    exact_laug (chain_smodel g cw) (chain_task g cw) w x y /\
    exact_inference (chain_smodel g cw) (chain_task g cw) w x.
Proof.
  exact (fun g cw x y w H1 H2 Hn Hk Hw Hc Hy =>
    conj (chain_implements g cw x y H1 H2 Hc Hy)
      (conj (chain_exact_laug g cw x y w H1 H2 Hn Hk Hw Hc Hy)
            (chain_exact_inference g cw x w H1 H2 Hn Hk Hw))).
Qed.

(** ** C22 *)
(** The two variants give the same result, exceptions included, for every model. *)
Theorem C22_variants_agree :
  forall (X Y : Type) (m : smodel X Y) (w : list Qc) (Xs : list X) (Ys : list Y) (C : Qc),
    objective_primal m w Xs Ys C NSlack = objective_primal m w Xs Ys C OneSlack.
Proof. exact (fun X Y => @objective_variants X Y). Qed.

Theorem C22_at_least_regulariser :
  forall (X Y : Type) (m : smodel X Y) (w : list Qc) (Xs : list X) (Ys : list Y) (C : Qc) (v : slack_variant) (r : Qc),
    0 <= C -> objective_primal m w Xs Ys C v = Ok r -> normsq w / (1 + 1) <= r.
Proof. exact (fun X Y => @objective_at_least_norm X Y). Qed.

(** With exact inference the value is C * (sum of hinge losses) + |w|^2 / 2 ... *)
Theorem C22_value :
  forall (X Y : Type) (m : smodel X Y) (T : task X Y) (d : nat) (w : list Qc) (Xs : list X) (Ys : list Y)
         (C : Qc) (v : slack_variant),
    length Xs = length Ys -> Xs <> [] -> length w = d ->
    (forall p, In p (combine Xs Ys) -> implements m T d (fst p) (snd p) /\ exact_laug m T w (fst p) (snd p)) ->
    exists hs,
      Forall2 (fun p h => is_hinge T w (fst p) (snd p) h) (combine Xs Ys) hs /\
      objective_primal m w Xs Ys C v = Ok (primal_value C w hs).
Proof. exact (fun X Y => @objective_value X Y). Qed.

(** ... and convex in w. *)
Theorem C22_convex :
  forall (X Y : Type) (m : smodel X Y) (T : task X Y) (d : nat) (t : Qc) (a b : list Qc)
         (Xs : list X) (Ys : list Y) (C : Qc) (v : slack_variant),
    length Xs = length Ys -> Xs <> [] -> length a = d -> length b = d -> 0 <= C -> 0 <= t -> t <= 1 ->
    (forall w p, length w = d -> In p (combine Xs Ys) ->
       implements m T d (fst p) (snd p) /\ exact_laug m T w (fst p) (snd p)) ->
    exists r ra rb,
      objective_primal m (vadd (vscale t a) (vscale (1 - t) b)) Xs Ys C v = Ok r /\
      objective_primal m a Xs Ys C v = Ok ra /\ objective_primal m b Xs Ys C v = Ok rb /\
      r <= t * ra + (1 - t) * rb.
Proof. exact (fun X Y => @objective_convex X Y). Qed.

(** no samples: list(zip(...))[2] raises IndexError *)
Theorem C22_no_samples :
  forall (X Y : Type) (m : smodel X Y) (w : list Qc) (Ys : list Y) (C : Qc) (v : slack_variant),
    objective_primal m w [] Ys C v = Err IndexError.
Proof. exact (fun X Y m w Ys C v => eq_refl). Qed.

(** ** The hypotheses are met: MultiClassClf (all of w), and a two-node ChainCRF *)
Definition ex7_m := MC 2 2 [ofN 1; ofN 2] false false.
Definition ex7_w := [ofN 1; 0; 0; ofN 1].
Definition ex7_X := [[ofN 2; ofN 1]; [ofN 1; ofN 3]].
Definition ex7_Y := [1; 1]%nat.
Example C22_hypotheses_met :
  length ex7_X = length ex7_Y /\ ex7_X <> [] /\
  forall w p, length w = mc_size ex7_m -> In p (combine ex7_X ex7_Y) ->
    implements (mc_smodel ex7_m) (mc_task 2 2 (get1 (mc_cw ex7_m))) (mc_size ex7_m) (fst p) (snd p) /\
    exact_laug (mc_smodel ex7_m) (mc_task 2 2 (get1 (mc_cw ex7_m))) w (fst p) (snd p).
Proof.
  split; [reflexivity|]. split; [discriminate|].
  intros w p Hw [<-|[<-|[]]]; (split;
    [apply (mc_implements ex7_m) | apply (mc_exact_laug ex7_m)]); auto; repeat constructor.
Qed.
Example C22_value_computed :
  (match objective_primal (mc_smodel ex7_m) ex7_w ex7_X ex7_Y (ofN 3) NSlack with
   | Ok r => this r | Err _ => 0#1 end)%Q = (10#1)%Q.
Proof. vm_compute. reflexivity. Qed.

Definition ex7_g := GraphCRF 2 1 true.
Definition ex7_x := Mat 2 1 [[ofN 1]; [- ofN 1]].
Definition ex7_cw := [ofN 1; 0; 0; ofN 2; 0; 0].
Example C21_chain_hypotheses_met :
  mat_ok ex7_x /\ mcols ex7_x = g_features ex7_g /\ labelling (mrows ex7_x) (g_states ex7_g) [1; 0]%nat /\
  (match find_constraint (chain_smodel ex7_g [ofN 1; ofN 1]) ex7_x [1; 0]%nat ex7_cw None true with
   | Ok (yh, d, s, l) => (yh, map this d, this s, this l) | Err _ => ([], [], 0#1, 0#1) end)%Q =
  ([0; 1]%nat, [(-2)#1; 2#1; 0#1; (-1)#1; 1#1; 0#1], 6#1, 2#1)%Q.
Proof.
  split. { apply mat_okb_ok. reflexivity. } split; [reflexivity|].
  split. { split; [reflexivity|]. repeat constructor. } vm_compute. reflexivity.
Qed.

Print Assumptions C21_slack_nonnegative.
Print Assumptions C21_slack_is_hinge.
Print Assumptions C21_slack_inexact.
Print Assumptions C21_hinge_bounds_prediction_loss.
Print Assumptions C21_objective_bounds_training_loss.
Print Assumptions C21_graphcrf_implements_task.
Print Assumptions C21_chaincrf_implements_task.
Print Assumptions C22_variants_agree.
Print Assumptions C22_at_least_regulariser.
Print Assumptions C22_value.
Print Assumptions C22_convex.
Print Assumptions C22_no_samples.
