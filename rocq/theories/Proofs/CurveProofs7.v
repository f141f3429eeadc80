(** The same for the Frank-Wolfe and subgradient learners. *)
From Coq Require Import ZArith Sorted Lia.
From Verif Require Import Base.QcBase Base.Sums Model.Curves Model.PlotLearning Spec.CurveSpec Proofs.Arrays
  Model.NSlack Model.OneSlack Model.FrankWolfe Model.Subgradient Model.SubgradientLatent
  Proofs.CurveProofs Proofs.CurveProofs2 Proofs.CurveProofs3 Proofs.CurveProofs4 Proofs.CurveProofs6.

(** ** FrankWolfeSSVM *)
Lemma fw_checked_view now lg pv dv s r ob vb o p c : view r ob vb (Some o) (Some p) c ->
  does now lg (fw_checked (FWIter pv dv s)) r (fun r => view r ob vb (Some (o ++ [dv])) (Some (p ++ [pv])) c).
Proof.
  intros B. unfold fw_checked. cbn [fi_primal fi_dual].
  eapply does_cons; [eapply do_primal; exact B|]. clear r B. intros r B.
  eapply does_cons; [eapply do_obj; exact B|]. clear r B. intros r B.
  apply do_stamp. exact B.
Qed.
Lemma fw_batch_step_view {X Y} prm (bm : bmodel X Y) Xs Ys gt it st st' g : fw_batch_step prm bm Xs Ys gt it st = Ok (st', g) ->
  exists p d, fb_primal st' = fb_primal st ++ [p] /\ fb_curve st' = fb_curve st ++ [d].
Proof.
  unfold fw_batch_step. cbv zeta. intros H. repeat (apply bind_inv in H as (? & _ & H)). injection H as <- _. cbn. eauto.
Qed.
Lemma fw_batch_view {X Y} prm (bm : bmodel X Y) Xs Ys gt k : forall it st st',
  fw_batch_loop prm bm Xs Ys gt k it st = Ok st' ->
  exists its, forall now lg r ob vb c, view r ob vb (Some (fb_curve st)) (Some (fb_primal st)) c ->
    does now lg (fwb_prog its k it) r (fun r => view r ob vb (Some (fb_curve st')) (Some (fb_primal st')) c).
Proof.
  induction k as [|k IH]; intros it st st' H; cbn [fw_batch_loop] in H.
  - injection H as <-. exists (fun _ => FWIter 0 0 false). intros. apply does_nil. assumption.
  - apply bind_inv in H as ((st1 & g) & Es & H). destruct (fw_batch_step_view _ _ _ _ _ _ _ _ _ Es) as (pv & dv & E1 & E2). cbn [fst snd] in H.
    destruct (Qcltb g (fw_tol prm)).
    + injection H as <-. exists (fun _ => FWIter pv dv true). intros now lg r ob vb c B. cbn [fwb_prog fi_stop].
      eapply does_app; [apply fw_checked_view; exact B|]. clear r B. intros r B. rewrite <- E1, <- E2 in B. apply do_log. exact B.
    + destruct (IH _ _ _ H) as (its & V). exists (upd it (FWIter pv dv false) its). intros now lg r ob vb c B. cbn [fwb_prog].
      rewrite !upd_same. cbn [fi_stop].
      eapply does_app; [apply fw_checked_view; exact B|]. clear r B. intros r B. rewrite <- E1, <- E2 in B.
      eapply does_cons; [apply do_log; exact B|]. clear r B. intros r B.
      rewrite (fwb_prog_ext _ its) by (intros i Hi; apply upd_later; exact Hi). apply V. exact B.
Qed.
Lemma fw_bc_view {X Y} prm (bm : bmodel X Y) Xs Ys sched k : forall it st gap primal curve st' primal' curve',
  fw_bc_loop prm bm Xs Ys sched k it st gap primal curve = Ok (st', primal', curve') ->
  (it = 0%nat \/ fw_check prm <> 0%nat) -> (it = 0%nat -> gap = None) ->
  exists its, forall now lg r ob vb c, view r ob vb (Some curve) (Some primal) c ->
    does now lg (fwbc_prog (fw_check prm) its k it) r (fun r => view r ob vb (Some curve') (Some primal') c).
Proof.
  induction k as [|k IH]; intros it st gap primal curve st' primal' curve' H Hc Hg; cbn [fw_bc_loop] in H.
  - injection H as <- <- <-. exists (fun _ => FWIter 0 0 false). intros. apply does_nil. assumption.
  - apply bind_inv in H as (st1 & _ & H). apply bind_inv in H as (((gap1 & primal1) & curve1) & Ec & H).
    assert (Cn : fw_check prm <> 0%nat).
    { destruct Hc as [->|]; [|assumption]. intros Z. rewrite Z in Ec. cbn in Ec. injection Ec as <- _ _. rewrite (Hg eq_refl) in H. discriminate H. }
    destruct gap1 as [g|]; [|discriminate H].
    destruct (fw_check prm =? 0)%nat eqn:Zb; [apply Nat.eqb_eq in Zb; congruence|].
    assert (Step : exists pv dv, forall s now lg r ob vb c, view r ob vb (Some curve) (Some primal) c ->
       does now lg (if (it mod fw_check prm =? 0)%nat then fw_checked (FWIter pv dv s) else []) r (fun r => view r ob vb (Some curve1) (Some primal1) c)).
    { cbn [negb andb] in Ec. destruct (it mod fw_check prm =? 0)%nat.
      - apply bind_inv in Ec as (((dv & gg) & pv) & _ & Ec). cbn in Ec. injection Ec as _ <- <-. exists pv, dv. intros. apply fw_checked_view. assumption.
      - injection Ec as _ <- <-. exists 0, 0. intros. apply does_nil. assumption. }
    destruct Step as (pv & dv & Step).
    destruct (Qcltb g (fw_tol prm)).
    + injection H as <- <- <-. exists (fun _ => FWIter pv dv true). intros now lg r ob vb c B. cbn [fwbc_prog fi_stop]. rewrite Zb. cbn [negb andb].
      eapply does_app; [apply Step; exact B|]. clear r B. intros r B. apply do_log. exact B.
    + destruct (IH (S it) st1 (Some g) primal1 curve1 _ _ _ H (or_intror Cn) ltac:(discriminate)) as (its & V).
      exists (upd it (FWIter pv dv false) its). intros now lg r ob vb c B. cbn [fwbc_prog].
      rewrite !upd_same. cbn [fi_stop]. rewrite Zb. cbn [negb andb].
      eapply does_app; [apply Step; exact B|]. clear r B. intros r B.
      eapply does_cons; [apply do_log; exact B|]. clear r B. intros r B.
      rewrite (fwbc_prog_ext _ _ its) by (intros i Hi; apply upd_later; exact Hi). apply V. exact B.
Qed.
Lemma last_of_entry o v : last_of o = Ok v -> last_entry o = Ok v.
Proof.
  unfold last_of. intros H. destruct (rev o) as [|x l] eqn:E; [discriminate|]. injection H as ->.
  assert (Eo : o = rev l ++ [v]) by (rewrite <- (rev_involutive o), E; reflexivity).
  rewrite Eo, (last_entry_nth _ 0) by (destruct (rev l); discriminate). f_equal. rewrite app_length. cbn [length].
  rewrite Nat.add_sub, app_nth2, Nat.sub_diag by lia. reflexivity.
Qed.
Lemma fw_link {X Y} prm (bm : bmodel X Y) Xs Ys sched old w l primal curve :
  fw_fit prm bm Xs Ys sched old = Ok (w, l, primal, curve) ->
  exists its p, forall now lg k b, exists r,
    fw_curves now lg (fw_batch prm) (fw_check prm) (fw_max_iter prm) its p None k b = Ok r /\
    b_obj (r_book r) = Some curve /\ b_primal (r_book r) = Some primal.
Proof.
  intros H. unfold fw_fit in H. destruct (match old with Some o => o | None => _ end) as [w0 l0].
  apply bind_inv in H as ((((w1 & l1) & p1) & c1) & E & H). apply bind_inv in H as (p & _ & H). apply bind_inv in H as (o & Eo & H).
  injection H as _ _ <- <-.
  assert (L : exists its, forall now lg r ob vb c, view r ob vb (Some []) (Some []) c ->
     does now lg (if fw_batch prm then fwb_prog its (fw_max_iter prm) 0 else fwbc_prog (fw_check prm) its (fw_max_iter prm) 0) r
       (fun r => view r ob vb (Some c1) (Some p1) c)).
  { destruct (fw_batch prm).
    - apply bind_inv in E as (s & Es & E). injection E as _ _ <- <-. unfold frank_wolfe_batch in Es. apply bind_inv in Es as (gt & _ & Es).
      exact (fw_batch_view _ _ _ _ _ _ _ _ _ Es).
    - apply bind_inv in E as (((s & pp) & cc) & Es & E). injection E as _ _ <- <-. unfold frank_wolfe_bc in Es.
      exact (fw_bc_view _ _ _ _ _ _ _ _ _ _ _ _ _ _ Es (or_introl eq_refl) (fun _ => eq_refl)). }
  destruct L as (its & V). exists its, p. intros now lg k b. unfold fw_curves, fit_acts. cbn [until].
  set (r0 := started _ _ _). assert (V0 : view r0 None false (Some []) (Some []) (b_cached b)) by (repeat split; cbn; eauto).
  destruct (V now lg r0 _ _ _ V0) as (r1 & A & B). rewrite A. cbn [bind].
  enough (X1 : does now lg [AStamp; APrimal p; AAppendLast; ALog None] r1 (fun r => view r None false (Some (c1 ++ [o])) (Some (p1 ++ [p])) (b_cached b))).
  { destruct X1 as (r2 & A2 & (_ & B2 & C2 & _)). exists r2. auto. }
  clear A. revert r1 B. intros r B.
  eapply does_cons; [eapply do_stamp; exact B|]. clear r B. intros r B.
  eapply does_cons; [eapply do_primal; exact B|]. clear r B. intros r B.
  eapply does_cons; [eapply do_last; [apply last_of_entry; exact Eo|exact B]|]. clear r B. intros r B.
  apply do_log. exact B.
Qed.

(** ** SubgradientSSVM *)
Lemma sg_view {X Y} prm (bm : bmodel X Y) lr shuf (losses : nat -> Qc) k : forall it S st curve st' curve' S',
  sg_loop prm bm lr shuf k it S st curve = Ok (st', curve', S') ->
  exists its, (forall i, si_loss (its i) = losses i) /\
  forall now lg every r ob vb p c, view r ob vb (Some curve) p c ->
    does now lg (sg_prog every its k it) r (fun r => view r ob vb (Some curve') p c).
Proof.
  induction k as [|k IH]; intros it S st curve st' curve' S' H; cbn [sg_loop] in H.
  - injection H as _ <- _. exists (fun i => SGIter true 0 (losses i)). split; [reflexivity|]. intros. apply does_nil. assumption.
  - apply bind_inv in H as (q & _ & H). destruct (((snd q =? 0)%Z && sg_break prm)%bool).
    + injection H as _ <- _. exists (fun i => SGIter true 0 (losses i)). split; [reflexivity|]. intros. cbn. apply does_nil. assumption.
    + apply bind_inv in H as (o & _ & H). destruct (IH _ _ _ _ _ _ _ H) as (its & Hl & V).
      exists (upd it (SGIter false o (losses it)) its). split.
      { intros i. unfold upd. destruct (i =? it)%nat eqn:E; [apply Nat.eqb_eq in E; subst; reflexivity|apply Hl]. }
      intros now lg every r ob vb p c B. cbn [sg_prog]. rewrite !upd_same. cbn [si_break si_obj si_loss app].
      eapply does_cons; [eapply do_stamp; exact B|]. clear r B. intros r B.
      eapply does_cons; [eapply do_obj; exact B|]. clear r B. intros r B.
      eapply does_app; [eapply do_loss; exact B|]. clear r B. intros r B.
      eapply does_cons; [apply do_log; exact B|]. clear r B. intros r B.
      rewrite (sg_prog_ext _ _ its) by (intros i Hi; apply upd_later; exact Hi). apply V. exact B.
Qed.
Lemma sg_final_view now lg every its max v r0 ob vb cu c1 p c :
  view r0 ob vb (Some cu) p c ->
  does now lg (sg_prog every its max 0) r0 (fun r => view r ob vb (Some c1) p c) ->
  exists r, fit_acts now lg None r0 (sg_prog every its max 0) [AStamp; AAppendObj v; ALog None] = Ok r /\ b_obj (r_book r) = Some (c1 ++ [v]).
Proof.
  intros V0 (r1 & A & B). unfold fit_acts. cbn [until]. rewrite A. cbn [bind].
  enough (X1 : does now lg [AStamp; AAppendObj v; ALog None] r1 (fun r => view r ob vb (Some (c1 ++ [v])) p c)).
  { destruct X1 as (r2 & A2 & (_ & B2 & _)). exists r2. auto. }
  clear A. revert r1 B. intros r B.
  eapply does_cons; [eapply do_stamp; exact B|]. clear r B. intros r B.
  eapply does_cons; [eapply do_obj; exact B|]. clear r B. intros r B.
  apply do_log. exact B.
Qed.
Lemma sg_link {X Y} prm (bm : bmodel X Y) shuf warm S L L' (losses : nat -> Qc) :
  sg_fit prm bm shuf warm S L = Ok L' ->
  exists its v w lr curve, (forall i, si_loss (its i) = losses i) /\ sl_fitted L' = Some (w, lr, curve) /\
  forall now lg every k b,
    (warm = true -> exists t0 ts w lr c, b_times b = Some (t0 :: ts) /\ sl_fitted L = Some (w, lr, c) /\ b_obj b = Some c) ->
    exists r, sg_curves now lg every (sg_max_iter prm) warm its v None k b = Ok r /\ b_obj (r_book r) = Some curve.
Proof.
  intros H. unfold sg_fit in H. cbv zeta in H. apply bind_inv in H as ((lr & c0) & E0 & H). apply bind_inv in H as (((st & c1) & S') & E1 & H).
  apply bind_inv in H as (o & _ & H). injection H as <-. cbn [fst snd] in *.
  destruct (sg_view _ _ _ _ losses _ _ _ _ _ _ _ _ E1) as (its & Hl & V).
  exists its, o, (sg_self st), lr, (c1 ++ [o]). split; [exact Hl|]. split; [reflexivity|]. intros now lg every k b Hb.
  unfold sg_curves. destruct warm.
  - destruct (Hb eq_refl) as (t0 & ts & w & lr' & c & T & F & O). rewrite F in E0. injection E0 as <- <-. rewrite T. cbn [bind].
    set (r0 := started _ _ _). assert (V0 : view r0 None false (Some c) (b_primal b) (b_cached b)) by (repeat split; cbn; eauto).
    exact (sg_final_view _ _ _ _ _ _ _ _ _ _ _ _ _ V0 (V now lg every r0 _ _ _ _ V0)).
  - injection E0 as <- <-. cbn [bind].
    set (r0 := started _ _ _). assert (V0 : view r0 None false (Some []) (b_primal b) (b_cached b)) by (repeat split; cbn; eauto).
    exact (sg_final_view _ _ _ _ _ _ _ _ _ _ _ _ _ V0 (V now lg every r0 _ _ _ _ V0)).
Qed.

(** ** SubgradientLatentSSVM *)
Lemma lsg_view {X Y} prm (m : lmodel X Y) lr S (losses : nat -> Qc) k : forall it st curve st' curve',
  lsg_loop prm m lr S k st curve = Ok (st', curve') ->
  exists its, (forall i, si_loss (its i) = losses i) /\
  forall now lg every r ob vb p c, view r ob vb (Some curve) p c ->
    does now lg (lsg_prog every its k it) r (fun r => view r ob vb (Some curve') p c).
Proof.
  induction k as [|k IH]; intros it st curve st' curve' H; cbn [lsg_loop] in H.
  - injection H as _ <-. exists (fun i => SGIter true 0 (losses i)). split; [reflexivity|]. intros. apply does_nil. assumption.
  - apply bind_inv in H as (((st1 & pos) & obj) & _ & H). destruct ((pos =? 0)%nat && sg_break prm)%bool.
    + injection H as _ <-. exists (fun i => SGIter true 0 (losses i)). split; [reflexivity|]. intros. cbn [lsg_prog si_break]. apply do_stamp. assumption.
    + set (o := obj * sg_C prm + normsq (sg_self st1) / (1 + 1)) in H. destruct (IH (Datatypes.S it) _ _ _ _ H) as (its & Hl & V).
      exists (upd it (SGIter false o (losses it)) its). split.
      { intros i. unfold upd. destruct (i =? it)%nat eqn:E; [apply Nat.eqb_eq in E; subst; reflexivity|apply Hl]. }
      intros now lg every r ob vb p c B. cbn [lsg_prog]. rewrite !upd_same. cbn [si_break si_obj si_loss].
      eapply does_cons; [eapply do_stamp; exact B|]. clear r B. intros r B.
      eapply does_cons; [eapply do_obj; exact B|]. clear r B. intros r B.
      eapply does_app; [eapply do_loss; exact B|]. clear r B. intros r B.
      eapply does_cons; [apply do_log; exact B|]. clear r B. intros r B.
      rewrite (lsg_prog_ext _ _ its) by (intros i Hi; apply upd_later; exact Hi). apply V. exact B.
Qed.
Lemma lsg_final_view now lg every its max v r0 ob vb cu c1 p c :
  view r0 ob vb (Some cu) p c ->
  does now lg (lsg_prog every its max 0) r0 (fun r => view r ob vb (Some c1) p c) ->
  exists r, fit_acts now lg None r0 (lsg_prog every its max 0) [AStamp; AAppendObj v; ALog None] = Ok r /\ b_obj (r_book r) = Some (c1 ++ [v]).
Proof.
  intros V0 (r1 & A & B). unfold fit_acts. cbn [until]. rewrite A. cbn [bind].
  enough (X1 : does now lg [AStamp; AAppendObj v; ALog None] r1 (fun r => view r ob vb (Some (c1 ++ [v])) p c)).
  { destruct X1 as (r2 & A2 & (_ & B2 & _)). exists r2. auto. }
  clear A. revert r1 B. intros r B.
  eapply does_cons; [eapply do_stamp; exact B|]. clear r B. intros r B.
  eapply does_cons; [eapply do_obj; exact B|]. clear r B. intros r B.
  apply do_log. exact B.
Qed.
Lemma lsg_link {X Y} prm (m : lmodel X Y) w0 warm S L L' (losses : nat -> Qc) :
  lsg_fit prm m w0 warm S L = Ok L' ->
  exists its v w lr curve, (forall i, si_loss (its i) = losses i) /\ sl_fitted L' = Some (w, lr, curve) /\
  forall now lg every k b,
    (warm = true -> exists t0 ts w lr c, b_times b = Some (t0 :: ts) /\ sl_fitted L = Some (w, lr, c) /\ b_obj b = Some c) ->
    exists r, lsg_curves now lg every (sg_max_iter prm) warm its v None k b = Ok r /\ b_obj (r_book r) = Some curve.
Proof.
  intros H. unfold lsg_fit in H. cbv zeta in H. apply bind_inv in H as ((lr & c0) & E0 & H). apply bind_inv in H as ((st & c1) & E1 & H).
  apply bind_inv in H as (o & _ & H). injection H as <-. cbn [fst snd] in *.
  destruct (lsg_view _ _ _ _ losses _ 0%nat _ _ _ _ E1) as (its & Hl & V).
  exists its, o, (sg_self st), lr, (c1 ++ [o]). split; [exact Hl|]. split; [reflexivity|]. intros now lg every k b Hb.
  unfold lsg_curves. destruct warm.
  - destruct (Hb eq_refl) as (t0 & ts & w & lr' & c & T & F & O). rewrite F in E0. injection E0 as <- <-. rewrite T. cbn [bind lsg_rewind last_entry tl].
    set (r0 := started _ _ _). assert (V0 : view r0 None false (Some c) (b_primal b) (b_cached b)) by (repeat split; cbn; eauto).
    exact (lsg_final_view _ _ _ _ _ _ _ _ _ _ _ _ _ V0 (V now lg every r0 _ _ _ _ V0)).
  - injection E0 as <- <-. cbn [bind].
    set (r0 := started _ _ _). assert (V0 : view r0 None false (Some []) (b_primal b) (b_cached b)) by (repeat split; cbn; eauto).
    exact (lsg_final_view _ _ _ _ _ _ _ _ _ _ _ _ _ V0 (V now lg every r0 _ _ _ _ V0)).
Qed.
