(** Specification vocabulary for the one-slack learner. *)
From Verif Require Export Spec.TaskSpec Spec.QPSpec Spec.NSlackSpec Model.OneSlack.

(** [v] is the largest violation of a constraint of [cs] *)
Definition worst (w : list Qc) (cs : list ocon) (v : Qc) : Prop :=
  (exists c, In c cs /\ violation w c = v) /\ forall c, In c cs -> violation w c <= v.

(** sum of the joint features of a labelling of the sample, and its total loss *)
Definition feat_sum {X Y} (T : task X Y) (d : nat) (Xs : list X) (Ys : list Y) : list Qc :=
  fold_right vadd (vzero d) (map (fun p => t_feat T (fst p) (snd p)) (combine Xs Ys)).
Definition loss_sum {X Y} (T : task X Y) (Ys Yh : list Y) : Qc :=
  lsum (map (fun p => t_loss T (fst p) (snd p)) (combine Ys Yh)).
(** allowed labellings of the sample *)
Definition labelling {X Y} (T : task X Y) (Xs : list X) (Ys : list Y) : Prop :=
  Forall2 (t_label T) Xs Ys.
(** the constraint of a labelling: means over the sample *)
Definition mean_con {X Y} (T : task X Y) (d : nat) (Xs : list X) (Ys Yh : list Y) (c : ocon) : Prop :=
  labelling T Xs Yh /\
  fst c = vscale (/ ofN (length Xs)) (vsub (feat_sum T d Xs Ys) (feat_sum T d Xs Yh)) /\
  snd c = loss_sum T Ys Yh / ofN (length Xs).

(** The batch methods compute the task on the sample (Xs, Ys); loss-augmented inference returns
    some allowed labelling. *)
Definition batch_ok {X Y} (bm : bmodel X Y) (T : task X Y) (d : nat) (Xs : list X) (Ys : list Y) : Prop :=
  sm_size (bm_s bm) = d /\ length Xs = length Ys /\ oracle_ok (bm_s bm) T d (combine Xs Ys) /\
  (forall Yh, labelling T Xs Yh ->
     bm_joint bm Xs Yh (if sm_rescale (bm_s bm) then Some Ys else None) = Ok (feat_sum T d Xs Yh) /\
     bm_loss bm Ys Yh = Ok (map (fun p => t_loss T (fst p) (snd p)) (combine Ys Yh))) /\
  (forall w, length w = d -> exists Yh, bm_laug bm Xs Ys w = Ok Yh /\ labelling T Xs Yh).
(** ... and it is the best one for every sample *)
Definition batch_exact {X Y} (bm : bmodel X Y) (T : task X Y) (d : nat) (Xs : list X) (Ys : list Y) : Prop :=
  batch_ok bm T d Xs Ys /\ oracle_exact (bm_s bm) T d (combine Xs Ys) /\
  (forall w, length w = d -> exists Yh, bm_laug bm Xs Ys w = Ok Yh /\
     Forall2 (fun p yh => t_label T (fst p) yh /\ is_hinge T w (fst p) (snd p) (margin T w (fst p) (snd p) yh))
       (combine Xs Ys) Yh).

(** ... and can be trained with parameters [prm]: the cache calls joint_feature without y_true *)
Definition usable {X Y} (T : task X Y) (d : nat) (prm : os_params) (Xs : list X) (Ys : list Y) (bm : bmodel X Y) : Prop :=
  batch_ok bm T d Xs Ys /\ (o_cache prm = O \/ sm_rescale (bm_s bm) = false).

(** ** pruning *)
Definition largest (l : list Qc) (v : Qc) : Prop := In v l /\ forall u, In u l -> u <= v.
(** [v] is the largest of the latest [window] values of history [h] *)
Definition peak (window : nat) (h : list Qc) (v : Qc) : Prop :=
  exists older latest, h = older ++ latest /\ length latest = Nat.min window (length h) /\ largest latest v.
(** histories after the duals [a] of the current round; the newest constraint has no past *)
Definition extended (alphas : list (list Qc)) (a : list Qc) : list (list Qc) :=
  zipw (fun h v => h ++ [v]) (alphas ++ [[]]) a.

(** ** the inference cache *)
(** no result equals an older one of the same sample *)
Definition distinct_results {Y} (ceq : Y -> Y -> res bool) (sample : list (centry Y)) : Prop :=
  ForallOrdPairs (fun older newer => ceq (snd newer) (snd older) = Ok false) sample.
(** [c] is the cached result a fresh loss-augmented inference would choose among [sample] *)
Definition best_cached {Y} (w : list Qc) (sample : list (centry Y)) (c : centry Y) : Prop :=
  In c sample /\ forall c', In c' sample ->
    dot (fst (fst c')) w + snd (fst c') <= dot (fst (fst c)) w + snd (fst c).
(** a cached result belongs to sample (x, y) *)
Definition valid_entry {X Y} (T : task X Y) (p : X * Y) (c : centry Y) : Prop :=
  t_label T (fst p) (snd c) /\ fst (fst c) = t_feat T (fst p) (snd c) /\ snd (fst c) = t_loss T (snd p) (snd c).

(** ** warm starts *)
(** The attributes of a learner from which training can be resumed: as many histories as
    constraints, everything belonging to the sample. *)
Definition resumable {X Y} (T : task X Y) (d : nat) (Xs : list X) (Ys : list Y) (a : os_attrs Y) : Prop :=
  exists cs, oa_cons a = Some cs /\ cs <> [] /\ length cs = length (oa_alphas a) /\ length (oa_w a) = d /\
    Forall (fun c => exists Yh, mean_con T d Xs Ys Yh c) cs /\
    Forall (Forall (fun v => 0 <= v)) (oa_alphas a) /\
    match oa_icache a with
    | None => True
    | Some l => Forall2 (fun p s => s <> [] /\ Forall (valid_entry T p) s) (combine Xs Ys) l /\
                oa_curve a <> [] /\ oa_primal a <> []
    end.
(** what a finished fit leaves behind *)
Definition attrs_of {Y} (st : os_state Y) : os_attrs Y :=
  OSAttrs (o_w st) (Some (o_cons st)) (o_alphas st) (o_icache st) (o_curve st) (o_primal st) (o_cached st).
