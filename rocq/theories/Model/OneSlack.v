(** Model of pystruct/learners/one_slack_ssvm.py (OneSlackSSVM).

    Not modelled: printing, time stamps, the logger, the training-loss curve
    (show_loss_every=0).  The model object is already initialised.  Python lists that the code
    modifies in place are passed and returned; the one aliasing that matters (self.constraints_
    and the local variable constraints are the same list) is modelled in [os_points]. *)
From Verif Require Export Model.Learner Model.QP Model.NSlack.

(** a constraint (djoint_feature, loss_mean) *)
Notation ocon := (list Qc * Qc)%type (only parsing).

Inductive cache_tol_opt := TolAuto | TolNone | TolValue (v : Qc).
Record os_params := OSParams {
  o_C : Qc; o_max_iter : nat; o_tol : Qc; o_check : bool; o_break : bool;
  o_neg : option (list nat); o_cache : nat; o_threshold : Qc; o_window : nat;
  o_cache_tol : cache_tol_opt }.

(** ** batch methods *)
(** What the learner uses of the model: the per-sample methods and the batch methods, which a
    model may override. *)
Record bmodel (X Y : Type) := BModel {
  bm_s : smodel X Y;
  bm_joint : list X -> list Y -> option (list Y) -> res (list Qc);
  bm_laug : list X -> list Y -> list Qc -> res (list Y);
  bm_loss : list Y -> list Y -> res (list Qc) }.
Arguments BModel {X Y}. Arguments bm_s {X Y}. Arguments bm_joint {X Y}.
Arguments bm_laug {X Y}. Arguments bm_loss {X Y}.

(** models/base.py 60-66 *)
Definition sm_full_loss {X Y} (m : smodel X Y) (y y_hat : Y) : res Qc :=
  if sm_tuple m y_hat then sm_closs m y y_hat else sm_loss m y y_hat.
Fixpoint sum_features (acc : list Qc) (fs : list (res (list Qc))) : res (list Qc) :=
  match fs with
  | [] => Ok acc
  | f :: r => let! v := f in let! acc := np_vadd acc v in sum_features acc r
  end.
(** models/base.py 33-41, 68-70, 95-98: the default batch methods.  zip(X, Y, None) is a
    TypeError. *)
Definition base_bmodel {X Y} (m : smodel X Y) : bmodel X Y :=
  BModel m
    (fun Xs Ys Yt =>
       if sm_rescale m
       then match Yt with
            | None => Err TypeError
            | Some ts => sum_features (vzero (sm_size m))
                           (map (fun p => sm_joint m (fst (fst p)) (snd (fst p)) (Some (snd p)))
                                (combine (combine Xs Ys) ts))
            end
       else sum_features (vzero (sm_size m)) (map (fun p => sm_joint m (fst p) (snd p) None) (combine Xs Ys)))
    (fun Xs Ys w => mapM (fun p => sm_laug m (fst p) (snd p) w) (combine Xs Ys))
    (fun Ys Yh => mapM (fun p => sm_full_loss m (fst p) (snd p)) (combine Ys Yh)).

(** ** [prune_constraints], lines 218-239 *)
(** zip(self.alphas, a): append each dual variable to its history *)
Fixpoint record_duals (alphas : list (list Qc)) (a : list Qc) : list (list Qc) :=
  match alphas, a with
  | h :: r, v :: s => (h ++ [v]) :: record_duals r s
  | _, _ => alphas
  end.
(** l[-k:] for k > 0 *)
Definition last_n {A} (k : nat) (l : list A) : list A := skipn (length l - k) l.
Definition max_active (window : nat) (alphas : list (list Qc)) : res (list Qc) :=
  mapM (fun h => np_max (last_n window h)) alphas.
(** np.where(max_active < limit)[0] *)
Definition below_limit (limit : Qc) (ma : list Qc) : list nat :=
  filter (fun i => Qcltb (get1 ma i) limit) (seq 0 (length ma)).
(** del l[i] *)
Definition del_at {A} (i : nat) (l : list A) : list A := firstn i l ++ skipn (S i) l.
Definition inactive_of (prm : os_params) (alphas : list (list Qc)) : res (list nat) :=
  let! ma := max_active (o_window prm) alphas in
  let! strongest := np_max (tl ma) in
  Ok (below_limit (o_threshold prm * strongest) ma).
(** the loop over reversed(inactive); [ds] is already reversed *)
Fixpoint del_loop {A} (ds : list nat) (cs : list A) (alphas : list (list Qc)) : list A * list (list Qc) :=
  match ds with
  | [] => (cs, alphas)
  | i :: r => del_loop r (del_at i cs) (del_at i alphas)
  end.
Definition os_prune {A} (prm : os_params) (cs : list A) (alphas : list (list Qc)) (a : list Qc)
  : res (list A * list (list Qc)) :=
  let alphas := alphas ++ [[]] in
  let! _ := ensure (length alphas =? length cs)%nat AssertionError in
  (* the slice assigned in line 224 changes nothing *)
  let alphas := record_duals alphas a in
  if (o_window prm =? 0)%nat then Ok (cs, alphas)
  else let! inactive := inactive_of prm alphas in
       Ok (del_loop (rev inactive) cs alphas).

(** [_solve_1_slack_qp], lines 159-216: new w, objective, constraints, histories.
    np.dot(a, joint_feature_matrix) uses the matrix built before pruning. *)
Definition solve_1_slack_qp (solve : qp_solver) (prm : os_params) (n_samples : nat)
           (cs : list ocon) (alphas : list (list Qc))
  : res (list Qc * Qc * list ocon * list (list Qc)) :=
  let! r := run_qp solve (one_slack_problem (o_C prm) (o_neg prm) n_samples (map fst cs) (map snd cs)) in
  let! p := os_prune prm cs alphas (fst r) in
  let! w := weights (fst r) (map fst cs) in
  Ok (w, snd r, fst p, snd p).

(** ** [_check_bad_constraint], lines 241-278 *)
(** np.all(v == u); arrays of different lengths compare as False *)
Definition vec_eqb (u v : list Qc) : bool :=
  (length u =? length v)%nat && forallb (fun p => Qceqb (fst p) (snd p)) (combine u v).
Fixpoint os_check_old (brk : bool) (w : list Qc) (viol : Qc) (old : list ocon) : res bool :=
  match old with
  | [] => Ok false
  | c :: r =>
      let! d := np_dot w (fst c) in
      if Qcltb (viol - Qcmax (snd c - d) 0) (- small)
      then (if brk then Err ValueError else Ok true)
      else os_check_old brk w viol r
  end.
Definition os_check_bad (prm : os_params) (brk : bool) (w : list Qc) (last_slack viol : Qc)
           (dj : list Qc) (loss : Qc) (old : list ocon) : res bool :=
  let difference := viol - last_slack in
  if Qcltb difference 0 && Qcltb 0 viol && brk then Err ValueError
  else if Qcltb difference (o_tol prm) then Ok true
  else if existsb (fun c => vec_eqb (fst c) dj && Qceqb loss (snd c)) old then Ok true
  else if o_check prm then os_check_old brk w viol old else Ok false.

(** ** the inference cache *)
(** an entry (joint_feature, loss, y_hat) *)
Notation centry Y := (list Qc * Qc * Y)%type (only parsing).
Notation icache Y := (list (list (centry Y))) (only parsing).

(** [_update_cache], lines 309-329, one sample.  [ceq] is constraint_equal. *)
Definition update_sample {X Y} (ceq : Y -> Y -> res bool) (prm : os_params) (m : smodel X Y)
           (sample : list (centry Y)) (x : X) (y y_hat : Y) : res (list (centry Y)) :=
  let! there := mapM (fun c => ceq y_hat (snd c)) sample in
  if existsb (fun b => b) there then Ok sample
  else
    let sample := if (o_cache prm <? length sample)%nat then tl sample else sample in
    let! f := sm_joint m x y_hat None in
    let! l := sm_full_loss m y y_hat in
    Ok (sample ++ [(f, l, y_hat)]).
(** zip(self.inference_cache_, X, Y, Y_hat) *)
Fixpoint update_samples {X Y} (ceq : Y -> Y -> res bool) (prm : os_params) (m : smodel X Y)
         (cache : icache Y) (Xs : list X) (Ys Yh : list Y) : res (icache Y) :=
  match cache, Xs, Ys, Yh with
  | s :: c, x :: xs, y :: ys, h :: hs =>
      let! s' := update_sample ceq prm m s x y h in
      let! c' := update_samples ceq prm m c xs ys hs in
      Ok (s' :: c')
  | _, _, _, _ => Ok cache
  end.
Definition update_cache {X Y} (ceq : Y -> Y -> res bool) (prm : os_params) (m : smodel X Y)
           (cache : option (icache Y)) (Xs : list X) (Ys Yh : list Y) : res (option (icache Y)) :=
  if (o_cache prm =? 0)%nat then Ok cache
  else let c := match cache with Some c => c | None => map (fun _ => []) Yh end in
       let! c' := update_samples ceq prm m c Xs Ys Yh in
       Ok (Some c').

(** the result used for one sample, lines 349-353 *)
Definition best_entry {Y} (w : list Qc) (cached : list (centry Y)) : res (centry Y) :=
  let! vs := mapM (fun c => let! d := np_dot (fst (fst c)) w in Ok (d + snd (fst c))) cached in
  let! i := np_argmax vs in
  index cached i.

(** (a - b) / n; an empty sample is a division by zero (nan in numpy) *)
Definition mean_diff (a b : list Qc) (n : nat) : res (list Qc) :=
  let! d := np_vsub a b in
  let! _ := ensure (negb (n =? 0)%nat) NonFinite in
  Ok (vscale (/ ofN n) d).
Definition last_of (l : list Qc) : res Qc :=
  match rev l with [] => Err IndexError | v :: _ => Ok v end.

(** learner attributes and local variables of fit *)
Record os_state (Y : Type) := OSState {
  o_w : list Qc; o_cons : list ocon; o_alphas : list (list Qc); o_slack : Qc;
  o_icache : option (icache Y); o_curve : list Qc; o_primal : list Qc; o_cached : list bool;
  o_ctol : Qc; o_obj : option Qc }.
Arguments OSState {Y}. Arguments o_w {Y}. Arguments o_cons {Y}. Arguments o_alphas {Y}.
Arguments o_slack {Y}. Arguments o_icache {Y}. Arguments o_curve {Y}. Arguments o_primal {Y}.
Arguments o_cached {Y}. Arguments o_ctol {Y}. Arguments o_obj {Y}.

(** [_constraint_from_cache], lines 331-367; [None] is the exception NoConstraint *)
Definition from_cache {X Y} (prm : os_params) (m : smodel X Y) (n : nat) (gt : list Qc) (st : os_state Y)
  : res (option ocon) :=
  match o_icache st with
  | None | Some [] => Ok None
  | Some cache =>
      let! p := last_of (o_primal st) in
      let! o := last_of (o_curve st) in
      if (match o_cache_tol prm with TolAuto => Qcltb (p - o) (o_ctol st) | _ => false end) then Ok None
      else
        let! best := mapM (best_entry (o_w st)) cache in
        let! acc := sum_features (vzero (sm_size m)) (map (fun c => Ok (fst (fst c))) best) in
        let! dj := mean_diff gt acc n in
        let loss := lsum (map (fun c => snd (fst c)) best) / ofN n in
        let! d := np_dot (o_w st) dj in
        let! bad := os_check_bad prm false (o_w st) (o_slack st) (loss - d) dj loss (o_cons st) in
        if bad then Ok None else Ok (Some (dj, loss))
  end.

(** [_find_new_constraint], lines 369-396: predictions and constraint.  With n_jobs != 1 the
    predictions are those of the default batch method. *)
Definition find_new {X Y} (prm : os_params) (bm : bmodel X Y) (Xs : list X) (Ys : list Y) (gt : list Qc)
           (w : list Qc) (last_slack : Qc) (cs : list ocon) : res (option (list Y * ocon)) :=
  let! Yh := bm_laug bm Xs Ys w in
  let! f := bm_joint bm Xs Yh (if sm_rescale (bm_s bm) then Some Ys else None) in
  let! dj := mean_diff gt f (length Xs) in
  let! ls := bm_loss bm Ys Yh in
  let! _ := ensure (negb (length ls =? 0)%nat) NonFinite in
  let loss := lsum ls / ofN (length ls) in
  let! d := np_dot w dj in
  let! bad := os_check_bad prm (o_break prm) w last_slack (loss - d) dj loss cs in
  if bad then Ok None else Ok (Some (Yh, (dj, loss))).

(** ** [fit], lines 398-552 *)
Inductive os_stop := OSNoConstraint | OSMaxIter.

(** lines 499-528: append the constraint, solve, update *)
Definition os_step {Y} (solve : qp_solver) (prm : os_params) (n : nat) (cached : bool) (c : ocon)
           (st : os_state Y) : res (os_state Y) :=
  let cs := o_cons st ++ [c] in
  let! d := np_dot (o_w st) (fst c) in
  let primal := o_C prm * ofN n * Qcmax (- d + snd c) 0 + normsq (o_w st) / (1 + 1) in
  let! q := solve_1_slack_qp solve prm n cs (o_alphas st) in
  let '(w, obj, cs, alphas) := q in
  let ctol := match o_cache_tol prm with
              | TolAuto => if cached then o_ctol st else (primal - obj) / (1 + 1 + 1 + 1)
              | _ => o_ctol st
              end in
  let! vs := mapM (fun c => let! d := np_dot w (fst c) in Ok (- d + snd c)) cs in
  let! s := np_max vs in
  Ok (OSState w cs alphas (Qcmax s 0) (o_icache st) (o_curve st ++ [obj]) (o_primal st ++ [primal])
        (o_cached st ++ [cached]) ctol (Some obj)).

(** the main loop: [k] iterations remain; [sw] is the model after switching to self.switch_to *)
Fixpoint os_loop {X Y} (ceq : Y -> Y -> res bool) (solve : qp_solver) (prm : os_params)
         (Xs : list X) (Ys : list Y) (gt : list Qc) (k : nat) (bm : bmodel X Y) (sw : option (bmodel X Y))
         (st : os_state Y) : res (os_state Y * os_stop * bmodel X Y) :=
  match k with
  | O => Ok (st, OSMaxIter, bm)
  | S k' =>
      let! c := from_cache prm (bm_s bm) (length Xs) gt st in
      match c with
      | Some c =>
          let! st := os_step solve prm (length Xs) true c st in
          os_loop ceq solve prm Xs Ys gt k' bm sw st
      | None =>
          let! r := find_new prm bm Xs Ys gt (o_w st) (o_slack st) (o_cons st) in
          match r with
          | Some (Yh, c) =>
              let! cache := update_cache ceq prm (bm_s bm) (o_icache st) Xs Ys Yh in
              let st := OSState (o_w st) (o_cons st) (o_alphas st) (o_slack st) cache (o_curve st)
                          (o_primal st) (o_cached st) (o_ctol st) (o_obj st) in
              let! st := os_step solve prm (length Xs) false c st in
              os_loop ceq solve prm Xs Ys gt k' bm sw st
          | None =>
              match sw with
              | Some bm' => os_loop ceq solve prm Xs Ys gt k' bm' None st
              | None => Ok (st, OSNoConstraint, bm)
              end
          end
      end
  end.

(** what an earlier fit left behind; [oa_cons] is self.constraints_ if it exists *)
Record os_attrs (Y : Type) := OSAttrs {
  oa_w : list Qc; oa_cons : option (list ocon); oa_alphas : list (list Qc);
  oa_icache : option (icache Y); oa_curve : list Qc; oa_primal : list Qc; oa_cached : list bool }.
Arguments OSAttrs {Y}. Arguments oa_w {Y}. Arguments oa_cons {Y}. Arguments oa_alphas {Y}.
Arguments oa_icache {Y}. Arguments oa_curve {Y}. Arguments oa_primal {Y}. Arguments oa_cached {Y}.

Inductive warm (Y : Type) := Cold | Soft (old : os_attrs Y) | Warm (old : os_attrs Y).
Arguments Cold {Y}. Arguments Soft {Y}. Arguments Warm {Y}.

(** lines 427-454: state before the main loop (last_slack_ = -1) *)
Definition os_start {Y} (prm : os_params) (size : nat) (ws : warm Y) : res (os_state Y) :=
  let ctol := match o_cache_tol prm with TolValue v => v | _ => o_tol prm end in
  match ws with
  | Cold => Ok (OSState (vzero size) [(vzero size, 0)] [[o_C prm]] (- (1)) None [] [] [] ctol None)
  | Soft a => Ok (OSState (vzero size) [(vzero size, 0)] [[o_C prm]] (- (1))
                    (oa_icache a) (oa_curve a) (oa_primal a) (oa_cached a) ctol None)
  | Warm a => match oa_cons a with
              | None => Err AttributeError
              | Some cs => Ok (OSState (oa_w a) cs (oa_alphas a) (- (1))
                                 (oa_icache a) (oa_curve a) (oa_primal a) (oa_cached a) ctol None)
              end
  end.

(** Result: final state (with the final values appended to the curves) and reason.  The
    attribute constraints_ is [o_cons] of the result. *)
Definition os_fit {X Y} (ceq : Y -> Y -> res bool) (solve : qp_solver) (prm : os_params) (bm : bmodel X Y)
           (sw : option (bmodel X Y)) (Xs : list X) (Ys : list Y) (ws : warm Y)
  : res (os_state Y * os_stop) :=
  let! st := os_start prm (sm_size (bm_s bm)) ws in
  let! gt := bm_joint bm Xs Ys (if sm_rescale (bm_s bm) then Some Ys else None) in
  let! r := os_loop ceq solve prm Xs Ys gt (o_max_iter prm) bm sw st in
  let '(st, reason, bm) := r in
  let! p := objective_primal (bm_s bm) (o_w st) Xs Ys (o_C prm) OneSlack in
  (* the local variable objective *)
  let! obj := (match o_obj st with Some o => Ok o | None => Err UnboundLocalError end) in
  Ok (OSState (o_w st) (o_cons st) (o_alphas st) (o_slack st) (o_icache st) (o_curve st ++ [obj])
        (o_primal st ++ [p]) (o_cached st ++ [false]) (o_ctol st) (Some obj), reason).

(** ** interruption *)
(** The lists that [constraints] and self.alphas hold at the successive points of one iteration
    at which KeyboardInterrupt may arrive: before the new constraint is appended; after that,
    while the QP is solved; after self.alphas.append([]); after the duals were recorded; and
    between the deletions of lines 237-239. *)
Inductive os_point := PBefore | PSolving | PSlot | PRecorded | PDelCon | PDelBoth.
Fixpoint del_points {A} (ds : list nat) (cs : list A) (alphas : list (list Qc))
  : list (os_point * (list A * list (list Qc))) :=
  match ds with
  | [] => []
  | i :: r => (PDelCon, (del_at i cs, alphas)) :: (PDelBoth, (del_at i cs, del_at i alphas)) ::
              del_points r (del_at i cs) (del_at i alphas)
  end.
Definition os_points {A} (prm : os_params) (c : A) (a : list Qc) (cs : list A) (alphas : list (list Qc))
  : list (os_point * (list A * list (list Qc))) :=
  let cs' := cs ++ [c] in
  let slot := alphas ++ [[]] in
  let recorded := record_duals slot a in
  (PBefore, (cs, alphas)) :: (PSolving, (cs', alphas)) :: (PSlot, (cs', slot)) ::
  (PRecorded, (cs', recorded)) ::
  (if (o_window prm =? 0)%nat then []
   else match inactive_of prm recorded with
        | Ok inactive => del_points (rev inactive) cs' recorded
        | Err _ => []
        end).

(** ** [constraint_equal], lines 280-307 *)
(** a y_hat: an array of labels, relaxed marginals (node, edge), or lists of marginals per type *)
Inductive yval := YArr (y : list nat) | YRel (u pw : list (list Qc)) | YMulti (us pws : list (list (list Qc))).
(** np.all(a == b) on 2-d arrays of the same shape *)
Definition rows_eqb (a b : list (list Qc)) : bool :=
  (length a =? length b)%nat && forallb (fun p => vec_eqb (fst p) (snd p)) (combine a b).
Definition all_rows_eqb (a b : list (list (list Qc))) : bool :=
  forallb (fun p => rows_eqb (fst p) (snd p)) (combine a b).
(** [mixed] is what np.all(array == tuple) gives (version dependent).  np.all(pw_m_1, pw_m_2)
    passes the second array as the axis: a TypeError. *)
Definition constraint_equal (mixed : yval -> yval -> res bool) (y1 y2 : yval) : res bool :=
  match y1, y2 with
  | YMulti u1 p1, YMulti u2 p2 => Ok (all_rows_eqb u1 u2 && all_rows_eqb p1 p2)
  | YRel u1 p1, YRel u2 p2 => if rows_eqb u1 u2 then Err TypeError else Ok false
  | YRel _ _, YArr _ | YMulti _ _, YArr _ => Ok false
  | YArr a, YArr b => Ok ((length a =? length b)%nat && forallb (fun p => (fst p =? snd p)%nat) (combine a b))
  | _, _ => mixed y1 y2
  end.
