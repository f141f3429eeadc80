(** What KeyboardInterrupt leaves behind in NSlackSSVM, FrankWolfeSSVM and SubgradientSSVM.

    fit catches KeyboardInterrupt around the main loop (n_slack_ssvm.py lines 268-382,
    frankwolfe_ssvm.py lines 295-301, subgradient_ssvm.py lines 192-229) and keeps the attributes
    as they are at that moment.  Python raises it between two bytecode instructions; an in-place
    numpy operation is one of them.  The functions below list the values of the attributes after
    each statement that changes one of them.  The curves and the rest of fit are in
    Model/Curves.v. *)
From Coq Require Import ZArith.
From Verif Require Export Model.NSlack Model.FrankWolfe Model.Subgradient.

(** ** NSlackSSVM *)
(** [constraints] after each append of lines 306-325 *)
Fixpoint gather_points {Y} (yeq : Y -> Y -> bool) (prm : ns_params) (w : list Qc)
         (cands : list (nat * (Y * list Qc * Qc * Qc))) (cs : list (list (ncon Y))) : list (list (list (ncon Y))) :=
  match cands with
  | [] => []
  | (i, (y_hat, delta, slack, loss)) :: r =>
      if negb (Qcltb 0 loss) then gather_points yeq prm w r cs
      else match nth_error cs i with
           | None => []
           | Some old =>
               match check_bad_constraint yeq prm w y_hat slack old with
               | Err _ => []
               | Ok true => gather_points yeq prm w r cs
               | Ok false => match append_at i (y_hat, delta, loss) cs with
                             | Err _ => []
                             | Ok cs' => cs' :: gather_points yeq prm w r cs'
                             end
               end
           end
  end.
(** successive [del sample[j]]; each result comes with the number of deletions still to do *)
Fixpoint deletions {A} (ds : list nat) (s : list A) : list (nat * list A) :=
  match ds with
  | [] => []
  | j :: r => (length r, del_at j s) :: deletions r (del_at j s)
  end.
(** [prune_constraints], lines 415-430, one sample: deletions still to do, the sample's
    constraints and self.last_active[i] after np.hstack, after += 1, after the counters of the
    unused constraints were dropped, and after each deletion *)
Definition sample_points {A} (limit : Qc) (window : nat) (sample : list A) (counts : list nat) (a : list Qc)
  : list (nat * (list A * list nat)) :=
  let counts := if (length counts <? length sample)%nat then counts ++ [O] else counts in
  (O, (sample, counts)) ::
  (if ((length counts =? length sample) && (length a =? length sample))%nat
   then let counts := zipw (fun c v => if Qcltb v limit then S c else c) counts a in
        let left := filter (fun c => (c <=? window)%nat) counts in
        let gone := rev (filter (fun j => (window <? nth j counts O)%nat) (seq 0 (length counts))) in
        (O, (sample, counts)) :: (length gone, (sample, left)) ::
        map (fun p => (fst p, (snd p, left))) (deletions gone sample)
   else []).
Fixpoint prune_points {A} (limit : Qc) (window : nat) (cs : list (list A)) (active : list (list nat)) (a : list Qc)
  : list (nat * (list (list A) * list (list nat))) :=
  match cs with
  | [] => []
  | s :: r =>
      match s, active with
      | [], _ => map (fun p => (fst p, (s :: fst (snd p), firstn 1 active ++ snd (snd p)))) (prune_points limit window r (tl active) a)
      | _, [] => []
      | _, c :: active' =>
          map (fun p => (fst p, (fst (snd p) :: r, snd (snd p) :: active'))) (sample_points limit window s c (firstn (length s) a)) ++
          match prune_sample limit window s c (firstn (length s) a) with
          | Err _ => []
          | Ok q => map (fun p => (fst p, (fst q :: fst (snd p), snd q :: snd (snd p))))
                      (prune_points limit window r active' (skipn (length s) a))
          end
      end
  end.
(** one batch, lines 294-332: deletions still to do, w, constraints, last_active *)
Definition ns_points {X Y} (yeq : Y -> Y -> bool) (solve : qp_solver) (prm : ns_params) (m : smodel X Y)
           (samples : list (X * Y)) (n_samples : nat) (b : nat * nat) (st : ns_state Y)
  : list (nat * (list Qc * list (list (ncon Y)) * list (list nat))) :=
  (O, (st_w st, st_cons st, st_active st)) ::
  match mapM (fun p => find_constraint m (fst p) (snd p) (st_w st) None true) (slice (fst b) (snd b) samples) with
  | Err _ => []
  | Ok cands =>
      let cands := combine (seq (fst b) (snd b - fst b)) cands in
      map (fun cs => (O, (st_w st, cs, st_active st))) (gather_points yeq prm (st_w st) cands (st_cons st)) ++
      match gather yeq prm (st_w st) cands (st_cons st) 0 0 with
      | Err _ => []
      | Ok (cs, new, _) =>
          if (new =? 0)%nat then []
          else let psis := map (fun c => fst (ncon_pair c)) (concat cs) in
               let losses := map (fun c => snd (ncon_pair c)) (concat cs) in
               match run_qp solve (n_slack_problem (ns_C prm) (ns_neg prm) n_samples psis losses (map (@length _) cs)) with
               | Err _ => []
               | Ok r =>
                   (if (ns_window prm =? 0)%nat then []
                    else map (fun p => (fst p, (st_w st, fst (snd p), snd (snd p))))
                           (prune_points (ns_threshold prm * ns_C prm) (ns_window prm) cs (st_active st) (fst r))) ++
                   match prune_constraints prm cs (st_active st) (fst r), weights (fst r) psis with
                   | Ok q, Ok w => [(O, (w, fst q, snd q))]
                   | _, _ => []
                   end
               end
      end
  end.

(** ** FrankWolfeSSVM, block-coordinate mode *)
(** before [w -= w_mat[i]]; after it; after [w += w_mat[i]]; after the assignment to self.w;
    after the one to self.l (lines 238-252) *)
Inductive fw_point := FBefore | FRemoved | FAdded | FWeights | FDone.
(** the attributes w and l in the update of sample i.  Without averaging, self.w and w are the
    same array from the first update on, so that lines 238 and 240 change self.w as well. *)
Definition fw_points {X Y} (prm : fw_params) (m : smodel X Y) (Xs : list X) (Ys : list Y) (i : nat) (st : fw_state)
  : list (fw_point * (list Qc * Qc)) :=
  let see w := if negb (fw_avg prm) && (0 <? fs_k st)%nat then w else fs_self_w st in
  (FBefore, (fs_self_w st, fs_self_l st)) ::
  match fw_step prm m Xs Ys i st, index (fs_wmat st) i with
  | Ok st', Ok wi =>
      [(FRemoved, (see (vsub (fs_w st) wi), fs_self_l st)); (FAdded, (see (fs_w st'), fs_self_l st));
       (FWeights, (fs_self_w st', fs_self_l st)); (FDone, (fs_self_w st', fs_self_l st'))]
  | _, _ => []
  end.

(** ** SubgradientSSVM *)
(** before [w += ...]; after it; after the assignment to self.w; after [self.t += 1.] (lines
    129-152) *)
Inductive sg_point := SBefore | SStepped | SWeights | SDone.
(** the attributes w and t in one step; [first]: no step was made yet in this call of fit, so
    that self.w and w are two arrays *)
Definition sg_points (prm : sg_params) (n : nat) (lr : Qc) (dj : list Qc) (first : bool) (st : sg_state)
  : list (sg_point * (list Qc * nat)) :=
  let see w := match sg_avg prm with AvgNone => if first then sg_self st else w | _ => sg_self st end in
  (SBefore, (sg_self st, sg_t st)) ::
  match solve_subgradient prm n lr dj st with
  | Ok st' => [(SStepped, (see (sg_w st'), sg_t st)); (SWeights, (sg_self st', sg_t st)); (SDone, (sg_self st', sg_t st'))]
  | Err _ => []
  end.
