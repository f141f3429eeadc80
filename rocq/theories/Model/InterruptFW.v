(** KeyboardInterrupt in the batch mode of FrankWolfeSSVM, frankwolfe_ssvm.py 146-195 and 296-309. *)
From Verif Require Export Model.FrankWolfe.

(** up to line 179; after the append to primal_objective_curve_ (line 180); after the one to
    objective_curve_ (181); after the assignment to self.w (188).  self.l is not assigned to. *)
Inductive fwb_point := BBefore | BPrimal | BDual | BWeights.
(** the attributes w, primal_objective_curve_ and objective_curve_ in one iteration *)
Definition fwb_points {X Y} (prm : fw_params) (bm : bmodel X Y) (Xs : list X) (Ys : list Y) (gt : list Qc) (it : nat) (st : fw_bstate)
  : list (fwb_point * (list Qc * list Qc * list Qc)) :=
  (BBefore, (fb_w st, fb_primal st, fb_curve st)) ::
  match fw_batch_step prm bm Xs Ys gt it st with
  | Ok (st', _) => [(BPrimal, (fb_w st, fb_primal st', fb_curve st)); (BDual, (fb_w st, fb_primal st', fb_curve st'));
                    (BWeights, (fb_w st', fb_primal st', fb_curve st'))]
  | Err _ => []
  end.
(** in all iterations; between two of them nothing is assigned *)
Fixpoint fwb_loop_points {X Y} (prm : fw_params) (bm : bmodel X Y) (Xs : list X) (Ys : list Y) (gt : list Qc) (k it : nat) (st : fw_bstate)
  : list (fwb_point * (list Qc * list Qc * list Qc)) :=
  match k with
  | O => []
  | S k' => fwb_points prm bm Xs Ys gt it st ++
            match fw_batch_step prm bm Xs Ys gt it st with
            | Ok (st', gap) => if Qcltb gap (fw_tol prm) then [] else fwb_loop_points prm bm Xs Ys gt k' (S it) st'
            | Err _ => []
            end
  end.
(** the rest of fit, lines 300-309, from the attributes w, l and the two curves *)
Definition fw_finish {X Y} (prm : fw_params) (bm : bmodel X Y) (Xs : list X) (Ys : list Y) (w : list Qc) (l : Qc) (primal curve : list Qc)
  : res (list Qc * Qc * list Qc * list Qc) :=
  let! p := objective_primal (bm_s bm) w Xs Ys (fw_C prm) NSlack in
  let! o := last_of curve in
  Ok (w, l, primal ++ [p], curve ++ [o]).
