(** Model of pystruct/learners/latent_structured_svm.py (LatentSSVM): the concave-convex
    procedure over a base learner, prediction, score, and the forwarding properties.

    Not modelled: printing, the logger, model.initialize (the model object is already
    initialised; the argument initialize of fit is ignored by the code). *)
From Verif Require Export Model.LatentLearner Model.NSlack Model.OneSlack Model.FrankWolfe Model.Subgradient Model.Perceptron.

(** What LatentSSVM uses of base_ssvm; [B] are its attributes after a call of fit.
    [bl_fit] is fit(X, H, constraints=None, initialize=False), [bl_refit] is
    fit(X, H, constraints=constraints, warm_start="soft", initialize=False),
    [bl_cons] is constraints_ if isinstance(base_ssvm, NSlackSSVM). *)
Record base_learner (X Y B : Type) := BaseLearner {
  bl_fit : list X -> list Y -> res B;
  bl_refit : list X -> list Y -> option (list (list (ncon Y))) -> B -> res B;
  bl_w : B -> list Qc;
  bl_cons : B -> option (list (list (ncon Y))) }.
Arguments BaseLearner {X Y B}. Arguments bl_fit {X Y B}. Arguments bl_refit {X Y B}.
Arguments bl_w {X Y B}. Arguments bl_cons {X Y B}.

(** np.any(h_new != h) on label arrays: arrays of one entry are broadcast; other shapes do not
    match and count as different *)
Definition labels_differ (a b : list nat) : bool :=
  if (length a =? length b)%nat then existsb (fun p => negb (fst p =? snd p)%nat) (combine a b)
  else match a, b with
       | [u], _ => existsb (fun v => negb (u =? v)%nat) b
       | _, [v] => existsb (fun u => negb (u =? v)%nat) a
       | _, _ => true
       end.

(** lines 108-116: the working set for the new latent labels [H], one (possibly empty) list per
    input; zip stops at the shortest argument *)
Definition adjust_sample {X Y} (s : smodel X Y) (w : list Qc) (x : X) (h : Y) (sample : list (ncon Y)) : res (list (ncon Y)) :=
  mapM (fun c => let! r := find_constraint s x h w (Some (fst (fst c))) true in
                 let '(yh, dj, _, loss) := r in Ok (yh, dj, loss)) sample.
Definition adjust_constraints {X Y} (s : smodel X Y) (w : list Qc) (Xs : list X) (H : list Y) (old : list (list (ncon Y)))
  : res (list (list (ncon Y))) :=
  let! cs := mapM (fun q => adjust_sample s w (fst (snd q)) (snd (snd q)) (fst q)) (combine old (combine Xs H)) in
  Ok (cs ++ repeat [] (length Xs - length cs)).

Inductive latent_stop := NoChange | LatentIter.

(** lines 90-127 for iterations after the first: [k] of them remain, [b] and [H] are the
    attributes of base_ssvm and the latent labels of the previous iteration.  The result lists
    the latent labels and the learner attributes of every further call of base_ssvm.fit. *)
Fixpoint cccp_loop {X Y B} (ydiff : Y -> Y -> bool) (m : lmodel X Y) (bl : base_learner X Y B)
         (Xs : list X) (Ys : list Y) (k : nat) (b : B) (H : list Y) : res (list (list Y * B) * latent_stop) :=
  match k with
  | O => Ok ([], LatentIter)
  | S k' =>
      let w := bl_w bl b in
      let! Hn := mapM (fun p => lm_latent m (fst p) (snd p) w) (combine Xs Ys) in
      if negb (existsb (fun q => ydiff (fst q) (snd q)) (combine Hn H)) then Ok ([], NoChange)
      else
        let! cs := (match bl_cons bl b with
                    | Some old => let! c := adjust_constraints (lm_s m) w Xs Hn old in Ok (Some c)
                    | None => Ok None
                    end) in
        let! b' := bl_refit bl Xs Hn cs b in
        let! r := cccp_loop ydiff m bl Xs Ys k' b' Hn in
        Ok ((Hn, b') :: fst r, snd r)
  end.
(** [fit], lines 57-129: every call of base_ssvm.fit with its latent labels; H_init_ *)
Definition cccp_fit {X Y B} (ydiff : Y -> Y -> bool) (m : lmodel X Y) (bl : base_learner X Y B)
           (Xs : list X) (Ys : list Y) (latent_iter : nat) (H_init : option (list Y))
  : res (list Y * list (list Y * B) * latent_stop) :=
  let! H := (match H_init with Some H => Ok H | None => lm_init m (combine Xs Ys) end) in
  match latent_iter with
  | O => Ok (H, [], LatentIter)
  | S k =>
      let! b := bl_fit bl Xs H in
      let! r := cccp_loop ydiff m bl Xs Ys k b H in
      Ok (H, (H, b) :: fst r, snd r)
  end.

(** ** the learners of the package as base_ssvm *)
(** NSlackSSVM.fit (n_slack_ssvm.py 240); switch_to=None, since switching changes the model
    object for the following iterations *)
Definition nslack_base {X Y} (yeq : Y -> Y -> bool) (solve : qp_solver) (prm : ns_params) (m : smodel X Y) : base_learner X Y (ns_state Y * list Qc * list Qc * ns_stop) :=
  BaseLearner (fun Xs H => ns_fit yeq solve prm m None Xs H None None)
    (fun Xs H cs b => let '(st, curve, primal, _) := b in
       ns_fit yeq solve prm m None Xs H cs (Some (NSAttrs (st_active st) curve primal)))
    (fun b => st_w (fst (fst (fst b)))) (fun b => Some (st_cons (fst (fst (fst b))))).
(** OneSlackSSVM.fit (one_slack_ssvm.py 398): constraints is ignored; switch_to=None *)
Definition oneslack_base {X Y} (ceq : Y -> Y -> res bool) (solve : qp_solver) (prm : os_params) (bm : bmodel X Y)
  : base_learner X Y (os_state Y * os_stop) :=
  BaseLearner (fun Xs H => os_fit ceq solve prm bm None Xs H Cold)
    (fun Xs H _ b => let st := fst b in
       os_fit ceq solve prm bm None Xs H
         (Soft (OSAttrs (o_w st) (Some (o_cons st)) (o_alphas st) (o_icache st) (o_curve st) (o_primal st) (o_cached st))))
    (fun b => o_w (fst b)) (fun _ => None).
(** SubgradientSSVM.fit (subgradient_ssvm.py 154): warm_start="soft" counts as true *)
Definition subgradient_base {X Y} (prm : sg_params) (bm : bmodel X Y) (shuf : nat -> list (X * Y) -> list (X * Y))
  : base_learner X Y sg_learner :=
  BaseLearner (fun Xs H => sg_fit prm bm shuf false (combine Xs H) sg_new)
    (fun Xs H _ b => sg_fit prm bm shuf true (combine Xs H) b)
    (fun b => match sl_fitted b with Some (w, _, _) => w | None => [] end) (fun _ => None).
(** FrankWolfeSSVM.fit (frankwolfe_ssvm.py 270) has no argument warm_start;
    [first] is the first call *)
Definition frankwolfe_base {X Y B} (first : list X -> list Y -> res B) (w : B -> list Qc) : base_learner X Y B :=
  BaseLearner first (fun _ _ _ _ => Err TypeError) w (fun _ => None).
(** StructuredPerceptron.fit (structured_perceptron.py 82) has no argument constraints *)
Definition perceptron_base {X Y B} (w : B -> list Qc) : base_learner X Y B :=
  BaseLearner (fun _ _ => Err TypeError) (fun _ _ _ _ => Err TypeError) w (fun _ => None).

(** ** prediction *)
(** [predict_latent], lines 133-134 (the models have batch_inference, which maps inference) *)
Definition cccp_predict_latent {X Y} (m : lmodel X Y) (w : list Qc) (Xs : list X) : res (list Y) :=
  mapM (fun x => sm_inference (lm_s m) x w) Xs.
(** [predict], lines 129-131 *)
Definition cccp_predict {X Y} (m : lmodel X Y) (w : list Qc) (Xs : list X) : res (list Y) :=
  let! H := cccp_predict_latent m w Xs in
  mapM (lm_label m) H.
(** [score], lines 136-158; 0/0 and x/0 are not finite *)
Definition cccp_score {X Y} (m : lmodel X Y) (w : list Qc) (Xs : list X) (Ys : list Y) : res Qc :=
  let! P := cccp_predict m w Xs in
  let! losses := mapM (fun q => lm_base_loss m (fst q) (snd q)) (combine Ys P) in
  let! mls := mapM (lm_max_loss m) Ys in
  if Qceqb (lsum mls) 0 then Err NonFinite else Ok (1 - lsum losses / lsum mls).

(** ** properties, lines 160-198 *)
(** attribute values of the base learner: a weight array or, after a wrong assignment, a number *)
Inductive wvalue := WArray (w : list Qc) | WNumber (c : Qc).
Record base_attrs (M : Type) := BaseAttrs {
  ba_model : M; ba_w : option wvalue; ba_C : Qc; ba_n_jobs : Z; ba_verbose : Z }.
Arguments BaseAttrs {M}. Arguments ba_model {M}. Arguments ba_w {M}. Arguments ba_C {M}.
Arguments ba_n_jobs {M}. Arguments ba_verbose {M}.

Definition get_model {M} (a : base_attrs M) : M := ba_model a.
Definition set_model {M} (v : M) (a : base_attrs M) : base_attrs M := BaseAttrs v (ba_w a) (ba_C a) (ba_n_jobs a) (ba_verbose a).
Definition get_w {M} (a : base_attrs M) : res wvalue := match ba_w a with Some w => Ok w | None => Err AttributeError end.
Definition set_w {M} (v : wvalue) (a : base_attrs M) : base_attrs M := BaseAttrs (ba_model a) (Some v) (ba_C a) (ba_n_jobs a) (ba_verbose a).
Definition get_C {M} (a : base_attrs M) : Qc := ba_C a.
(** the setter of C assigns base_ssvm.w, line 182 *)
Definition set_C {M} (c : Qc) (a : base_attrs M) : base_attrs M :=
  BaseAttrs (ba_model a) (Some (WNumber c)) (ba_C a) (ba_n_jobs a) (ba_verbose a).
Definition get_n_jobs {M} (a : base_attrs M) : Z := ba_n_jobs a.
Definition set_n_jobs {M} (v : Z) (a : base_attrs M) : base_attrs M := BaseAttrs (ba_model a) (ba_w a) (ba_C a) v (ba_verbose a).
Definition get_verbose {M} (a : base_attrs M) : Z := ba_verbose a.
Definition set_verbose {M} (v : Z) (a : base_attrs M) : base_attrs M := BaseAttrs (ba_model a) (ba_w a) (ba_C a) (ba_n_jobs a) v.
