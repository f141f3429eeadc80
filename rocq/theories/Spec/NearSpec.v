(** Inference that is not exact: the output found may fall short of the best one by [eps]. *)
From Verif Require Export Model.CRF Spec.Energy Spec.TaskSpec Spec.NSlackSpec Spec.OneSlackSpec Spec.PerceptronSpec.

(** the margin violation of [yh] is within [eps] of the largest one *)
Definition near_worst {X Y} (T : task X Y) (eps : Qc) (w : list Qc) (x : X) (y yh : Y) : Prop :=
  t_label T x yh /\ forall y', t_label T x y' -> margin T w x y y' <= margin T w x y yh + eps.
(** loss-augmented inference, one sample at a time *)
Definition oracle_near {X Y} (eps : Qc) (m : smodel X Y) (T : task X Y) (d : nat) (S : list (X * Y)) : Prop :=
  forall p, In p S -> implements m T d (fst p) (snd p) /\
    forall w, length w = d -> exists yh, sm_laug m (fst p) (snd p) w = Ok yh /\ near_worst T eps w (fst p) (snd p) yh.
(** ... and all samples at a time *)
Definition batch_near {X Y} (eps : Qc) (bm : bmodel X Y) (T : task X Y) (d : nat) (Xs : list X) (Ys : list Y) : Prop :=
  batch_ok bm T d Xs Ys /\ oracle_near eps (bm_s bm) T d (combine Xs Ys) /\
  (forall w, length w = d -> exists Yh, bm_laug bm Xs Ys w = Ok Yh /\
     Forall2 (fun p yh => near_worst T eps w (fst p) (snd p) yh) (combine Xs Ys) Yh).
(** prediction *)
Definition infers_near {X Y} (eps : Qc) (m : smodel X Y) (T : task X Y) (d : nat) (S : list (X * Y)) : Prop :=
  forall p w, In p S -> length w = d -> exists yp, sm_inference m (fst p) w = Ok yp /\ t_label T (fst p) yp /\
    forall y', t_label T (fst p) y' -> dot w (t_feat T (fst p) y') <= dot w (t_feat T (fst p) yp) + eps.
(** a solver whose labellings are within [eps] of the best, for every problem on the graph with one shared table *)
Definition near_solver_on (eps : Qc) (solve : solver) (n : nat) (edges : list (nat * nat)) : Prop :=
  forall U m k, mat_ok U -> mat_ok m -> mrows U = n -> mcols U = k -> mrows m = k -> mcols m = k -> (0 < k)%nat ->
    exists y, solve U (Pw2 m) edges = Ok y /\ Energy.labelling n k y /\
      forall y', Energy.labelling n k y' -> score n edges (mget U) (fun _ => mget m) (lab y') <= score n edges (mget U) (fun _ => mget m) (lab y) + eps.
