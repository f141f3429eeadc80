(** The fits of the learner models are runs of the programs of Curves.v. *)
From Coq Require Import ZArith Sorted Lia.
From Verif Require Import Base.QcBase Base.Sums Model.Curves Model.PlotLearning Spec.CurveSpec Proofs.Arrays
  Model.NSlack Model.OneSlack Model.FrankWolfe Model.Subgradient Model.SubgradientLatent
  Proofs.CurveProofs Proofs.CurveProofs2 Proofs.CurveProofs3 Proofs.CurveProofs4.

Definition view (r : run) (ob : option Qc) (vb : bool) (o p : option (list Qc)) (c : option (list bool)) : Prop :=
  (exists t0 ts, b_times (r_book r) = Some (t0 :: ts)) /\ b_obj (r_book r) = o /\ b_primal (r_book r) = p /\
  b_cached (r_book r) = c /\ r_objective r = ob /\ r_verbose r = vb.

Section V.
Variable now : nat -> Qc.
Variable lg : bool.
Definition does (l : list act) (r : run) (P : run -> Prop) : Prop := exists r', acts now lg l r = Ok r' /\ P r'.
Lemma does_app l1 l2 r P Q : does l1 r P -> (forall r', P r' -> does l2 r' Q) -> does (l1 ++ l2) r Q.
Proof.
  intros (r1 & H1 & P1) H. destruct (H r1 P1) as (r2 & H2 & Q2). exists r2. rewrite acts_app, H1. auto.
Qed.
Lemma does_cons a l r P Q : does [a] r P -> (forall r', P r' -> does l r' Q) -> does (a :: l) r Q.
Proof. apply (does_app [a]). Qed.
Lemma does_nil r (P : run -> Prop) : P r -> does [] r P.
Proof. intros H. exists r. auto. Qed.
Ltac op H := destruct H as ((t0 & ts & T) & O & P & C & Ob & Vb); eexists; split; [cbn; rewrite ?T, ?O, ?P, ?C, ?Ob, ?Vb; cbn; reflexivity|];
  repeat split; cbn; eauto.
Lemma do_stamp r ob vb o p c : view r ob vb o p c -> does [AStamp] r (fun r => view r ob vb o p c).
Proof. intros H. op H. Qed.
Lemma do_batch r ob vb o p c : view r ob vb o p c -> does [ABatch] r (fun r => view r ob true o p c).
Proof. intros H. op H. Qed.
Lemma do_objective v r ob vb o p c : view r ob vb o p c -> does [AObjective v] r (fun r => view r (Some v) vb o p c).
Proof. intros H. op H. Qed.
Lemma do_local r v vb o p c : view r (Some v) vb (Some o) p c -> does [AAppendLocal] r (fun r => view r (Some v) vb (Some (o ++ [v])) p c).
Proof. intros H. op H. Qed.
Lemma do_obj v r ob vb o p c : view r ob vb (Some o) p c -> does [AAppendObj v] r (fun r => view r ob vb (Some (o ++ [v])) p c).
Proof. intros H. op H. Qed.
Lemma do_last v r ob vb o p c : last_entry o = Ok v -> view r ob vb (Some o) p c -> does [AAppendLast] r (fun r => view r ob vb (Some (o ++ [v])) p c).
Proof. intros E H. destruct H as ((t0 & ts & T) & O & P & C & Ob & Vb); eexists; split; [cbn; rewrite O, E; cbn; reflexivity|]. repeat split; cbn; eauto. Qed.
Lemma do_primal v r ob vb o p c : view r ob vb o (Some p) c -> does [APrimal v] r (fun r => view r ob vb o (Some (p ++ [v])) c).
Proof. intros H. op H. Qed.
Lemma do_cached v r ob vb o p c : view r ob vb o p (Some c) -> does [ACached v] r (fun r => view r ob vb o p (Some (c ++ [v]))).
Proof. intros H. op H. Qed.
Lemma do_verbose r ob o p c : view r ob true o p c -> does [AVerbose] r (fun r => view r ob true o p c).
Proof. intros H. op H. Qed.
Lemma do_log i r ob vb o p c : view r ob vb o p c -> does [ALog i] r (fun r => view r ob vb o p c).
Proof. intros H. destruct lg eqn:E; destruct H as ((t0 & ts & T) & O & P & C & Ob & Vb); eexists; (split; [cbn; rewrite E; reflexivity|]); repeat split; cbn; eauto. Qed.
Lemma do_loss every it v r ob vb o p c : view r ob vb o p c -> does (loss_acts every it v) r (fun r => view r ob vb o p c).
Proof.
  intros H. unfold loss_acts. destruct (_ && _); [|apply does_nil; exact H].
  destruct H as ((t0 & ts & T) & O & P & C & Ob & Vb). destruct (b_loss (r_book r)) eqn:E; eexists; (split; [cbn; rewrite E; cbn; reflexivity|]); repeat split; cbn; eauto.
Qed.
End V.

(** changing the description of one iteration *)
Definition upd {A} (it : nat) (x : A) (f : nat -> A) (i : nat) : A := if (i =? it)%nat then x else f i.
Lemma upd_same {A} it (x : A) f : upd it x f it = x.
Proof. unfold upd. rewrite Nat.eqb_refl. reflexivity. Qed.
Lemma upd_later {A} it (x : A) f i : (S it <= i)%nat -> upd it x f i = f i.
Proof. intros H. unfold upd. destruct (i =? it)%nat eqn:E; [apply Nat.eqb_eq in E; lia|reflexivity]. Qed.
Lemma ns_prog_ext every f g k : forall it sw, (forall i, (it <= i)%nat -> f i = g i) -> ns_prog every f k it sw = ns_prog every g k it sw.
Proof.
  induction k as [|k IH]; intros it sw H; cbn [ns_prog]; [reflexivity|]. rewrite (H it) by lia.
  destruct (ni_stop (g it)); [destruct sw|]; rewrite ?(IH (S it)) by (intros; apply H; lia); reflexivity.
Qed.
Lemma os_prog_ext every f g k : forall it sw, (forall i, (it <= i)%nat -> f i = g i) -> os_prog every f k it sw = os_prog every g k it sw.
Proof.
  induction k as [|k IH]; intros it sw H; cbn [os_prog]; [reflexivity|]. rewrite (H it) by lia.
  destruct (g it); [destruct sw|]; rewrite ?(IH (S it)) by (intros; apply H; lia); reflexivity.
Qed.
Lemma fwb_prog_ext f g k : forall it, (forall i, (it <= i)%nat -> f i = g i) -> fwb_prog f k it = fwb_prog g k it.
Proof.
  induction k as [|k IH]; intros it H; cbn [fwb_prog]; [reflexivity|]. rewrite (H it) by lia. rewrite (IH (S it)) by (intros; apply H; lia). reflexivity.
Qed.
Lemma fwbc_prog_ext check f g k : forall it, (forall i, (it <= i)%nat -> f i = g i) -> fwbc_prog check f k it = fwbc_prog check g k it.
Proof.
  induction k as [|k IH]; intros it H; cbn [fwbc_prog]; [reflexivity|]. rewrite (H it) by lia. rewrite (IH (S it)) by (intros; apply H; lia). reflexivity.
Qed.
Lemma sg_prog_ext every f g k : forall it, (forall i, (it <= i)%nat -> f i = g i) -> sg_prog every f k it = sg_prog every g k it.
Proof.
  induction k as [|k IH]; intros it H; cbn [sg_prog]; [reflexivity|]. rewrite (H it) by lia. rewrite (IH (S it)) by (intros; apply H; lia). reflexivity.
Qed.
Lemma lsg_prog_ext every f g k : forall it, (forall i, (it <= i)%nat -> f i = g i) -> lsg_prog every f k it = lsg_prog every g k it.
Proof.
  induction k as [|k IH]; intros it H; cbn [lsg_prog]; [reflexivity|]. rewrite (H it) by lia. rewrite (IH (S it)) by (intros; apply H; lia). reflexivity.
Qed.

Definition can {A} (o : option A) : bool := match o with Some _ => true | None => false end.

(** ** NSlackSSVM *)
Lemma ns_acts_view now lg every it v l p s r ob vb o q c : view r ob vb (Some o) (Some q) c ->
  does now lg (ns_acts every it (NSIter [Some v] l p s)) r (fun r => view r (Some v) true (Some (o ++ [v])) (Some (q ++ [p])) c).
Proof.
  intros H. unfold ns_acts. cbn [ni_batches ni_loss ni_primal flat_map app].
  eapply does_cons; [apply do_stamp; exact H|]. clear r H. intros r H.
  eapply does_cons; [eapply do_batch; exact H|]. clear r H. intros r H.
  eapply does_cons; [eapply do_objective; exact H|]. clear r H. intros r H.
  eapply does_cons; [eapply do_local; exact H|]. clear r H. intros r H.
  eapply does_app; [eapply do_loss; exact H|]. clear r H. intros r H.
  eapply do_primal. exact H.
Qed.
Lemma ns_loop_view {X Y} yeq solve prm samples n (losses : nat -> Qc) k : forall it (m : smodel X Y) sw st curve primal st' curve' primal' reason m',
  ns_loop yeq solve prm samples n k it m sw st curve primal = Ok (st', curve', primal', reason, m') ->
  exists its, (forall i, ni_loss (its i) = losses i) /\
  forall now lg every r ob vb c, view r ob vb (Some curve) (Some primal) c -> ob = st_objective st ->
    does now lg (ns_prog every its k it (can sw)) r
      (fun r => exists ob' vb', view r ob' vb' (Some curve') (Some primal') c /\ ob' = st_objective st' /\ (vb = true \/ k <> 0%nat -> vb' = true)).
Proof.
  induction k as [|k IH]; intros it m sw st curve primal st' curve' primal' reason m' H; cbn [ns_loop] in H.
  - injection H as <- <- <- <- <-. exists (fun i => NSIter [] (losses i) 0 false). split; [reflexivity|]. intros now lg every r ob vb c V E.
    apply does_nil. exists ob, vb. split; [exact V|]. split; [exact E|]. intros [Z|Z]; [exact Z|congruence].
  - apply bind_inv in H as (bs & _ & H). apply bind_inv in H as (((st1 & new) & slacks) & _ & H).
    apply bind_inv in H as (obj & Eo & H).
    assert (Es : st_objective st1 = Some obj) by (destruct (st_objective st1); [injection Eo as <-; reflexivity|discriminate Eo]).
    set (stop := ((new =? 0)%nat || _)%bool) in H.
    set (pv := ns_C prm * slacks + normsq (st_w st1) / (1 + 1)) in H.
    destruct stop eqn:Stop.
    + destruct sw as [m2|].
      * destruct (IH _ _ _ _ _ _ _ _ _ _ _ H) as (its & Hl & V'). exists (upd it (NSIter [Some obj] (losses it) pv true) its). split.
        { intros i. unfold upd. destruct (i =? it)%nat eqn:E; [apply Nat.eqb_eq in E; subst; reflexivity|apply Hl]. }
        intros now lg every r ob vb c V E. cbn [ns_prog can]. rewrite !upd_same. cbn [ni_stop].
        eapply does_app; [eapply ns_acts_view; exact V|]. clear r V. intros r V. cbn in V.
        rewrite (ns_prog_ext _ _ its) by (intros i Hi; apply upd_later; exact Hi).
        destruct (V' now lg every r _ _ _ V (eq_sym Es)) as (r' & A & ob' & vb' & B & C & D). exists r'. split; [exact A|]. exists ob', vb'. auto.
      * injection H as <- <- <- _ <-. exists (upd it (NSIter [Some obj] (losses it) pv true) (fun i => NSIter [] (losses i) 0 false)). split.
        { intros i. unfold upd. destruct (i =? it)%nat eqn:E; [apply Nat.eqb_eq in E; subst; reflexivity|reflexivity]. }
        intros now lg every r ob vb c V E. cbn [ns_prog can]. rewrite !upd_same. cbn [ni_stop]. rewrite app_nil_r.
        destruct (ns_acts_view now lg every it obj (losses it) pv true _ _ _ _ _ _ V) as (r' & A & B). exists r'. split; [exact A|].
        exists (Some obj), true. auto.
    + destruct (IH _ _ _ _ _ _ _ _ _ _ _ H) as (its & Hl & V'). exists (upd it (NSIter [Some obj] (losses it) pv false) its). split.
      { intros i. unfold upd. destruct (i =? it)%nat eqn:E; [apply Nat.eqb_eq in E; subst; reflexivity|apply Hl]. }
      intros now lg every r ob vb c V E. cbn [ns_prog can]. rewrite !upd_same. cbn [ni_stop].
      eapply does_app; [eapply ns_acts_view; exact V|]. clear r V. intros r V. cbn in V.
      eapply does_cons; [eapply do_log; exact V|]. clear r V. intros r V. cbn in V.
      rewrite (ns_prog_ext _ _ its) by (intros i Hi; apply upd_later; exact Hi).
      destruct (V' now lg every r _ _ _ V (eq_sym Es)) as (r' & A & ob' & vb' & B & C & D). exists r'. split; [exact A|]. exists ob', vb'. auto.
Qed.
Lemma ns_link {X Y} yeq solve prm (m : smodel X Y) sw Xs Ys constraints old st curve primal reason (losses : nat -> Qc) :
  ns_fit yeq solve prm m sw Xs Ys constraints old = Ok (st, curve, primal, reason) ->
  exists its warm p, (forall i, ni_loss (its i) = losses i) /\ (warm = None <-> constraints = None) /\
  forall now lg every k b,
    (constraints <> None -> exists a t0 ts, old = Some a /\ b_times b = Some (t0 :: ts) /\ b_obj b = Some (at_curve a) /\ b_primal b = Some (at_primal a)) ->
    exists r, ns_curves now lg every (ns_max_iter prm) (can sw) warm its p None k b = Ok r /\
      b_obj (r_book r) = Some curve /\ b_primal (r_book r) = Some primal.
Proof.
  intros H. unfold ns_fit in H. apply bind_inv in H as (((st0 & c0) & p0) & E0 & H). apply bind_inv in H as (((((st1 & c1) & p1) & re) & m') & E1 & H).
  apply bind_inv in H as (u & Eu & H). apply bind_inv in H as (p & Ep & H). apply bind_inv in H as (obj & Eo & H). injection H as -> <- <- <-.
  destruct (ns_loop_view _ _ _ _ _ losses _ _ _ _ _ _ _ _ _ _ _ _ E1) as (its & Hl & V).
  assert (N : ns_max_iter prm <> 0%nat).
  { intros Z. rewrite Z in Eu. discriminate Eu. }
  assert (Es : st_objective st = Some obj) by (destruct (st_objective st); [injection Eo as <-; reflexivity|discriminate Eo]).
  assert (F : forall now lg every k b r0 c warm, view r0 (st_objective st0) false (Some c0) (Some p0) c ->
     r0 = match warm with
             | None => started (Book (Some [now k]) (Some []) (Some []) (b_cached b) (b_loss b)) (S k) None
             | Some v => started b k (Some v)
             end ->
     exists r, ns_curves now lg every (ns_max_iter prm) (can sw) warm its p None k b = Ok r /\
      b_obj (r_book r) = Some (c1 ++ [obj]) /\ b_primal (r_book r) = Some (p1 ++ [p])).
  { intros now lg every k b r0 c warm Vw Er. unfold ns_curves, fit_acts. rewrite <- Er. cbn [until].
    destruct (V now lg every r0 _ _ _ Vw eq_refl) as (r1 & A & ob' & vb' & B & C & D). rewrite A. cbn [bind].
    rewrite (D (or_intror N)), C, Es in B.
    enough (X1 : does now lg [AVerbose; AStamp; APrimal p; AAppendLocal; ALog None] r1 (fun r => view r (Some obj) true (Some (c1 ++ [obj])) (Some (p1 ++ [p])) c)).
    { destruct X1 as (r2 & A2 & (_ & B2 & C2 & _)). exists r2. auto. }
    clear A. revert r1 B. intros r B.
    eapply does_cons; [apply do_verbose; exact B|]. clear r B. intros r B.
    eapply does_cons; [eapply do_stamp; exact B|]. clear r B. intros r B.
    eapply does_cons; [eapply do_primal; exact B|]. clear r B. intros r B.
    eapply does_cons; [eapply do_local; exact B|]. clear r B. intros r B.
    apply do_log. exact B. }
  destruct constraints as [cs|].
  - destruct old as [a|]; [|discriminate E0]. apply bind_inv in E0 as ((((w & v) & cs') & act) & Eq & E0). injection E0 as <- <- <-.
    exists its, (Some v), p. split; [exact Hl|]. split; [split; discriminate|]. intros now lg every k b Hb.
    destruct (Hb ltac:(discriminate)) as (a' & t0 & ts & Ea & T & O & P). injection Ea as <-.
    apply (F now lg every k b (started b k (Some v)) (b_cached b) (Some v)); [|reflexivity]. repeat split; cbn; eauto.
  - injection E0 as <- <- <-. exists its, None, p. split; [exact Hl|]. split; [tauto|]. intros now lg every k b _.
    eapply (F now lg every k b _ (b_cached b) None); [|reflexivity]. repeat split; cbn; eauto.
Qed.

(** ** OneSlackSSVM *)
Definition os_found (losses : nat -> Qc) (its : nat -> os_iter) : Prop :=
  forall i, its i = OINone \/ exists p c o, its i = OIFound (losses i) p c o.
Lemma os_step_view {Y} solve prm n cached c (st st' : os_state Y) : os_step solve prm n cached c st = Ok st' ->
  exists p o, o_curve st' = o_curve st ++ [o] /\ o_primal st' = o_primal st ++ [p] /\ o_cached st' = o_cached st ++ [cached] /\ o_obj st' = Some o.
Proof.
  unfold os_step. intros H. apply bind_inv in H as (d & _ & H). cbv zeta in H. apply bind_inv in H as ((((w & obj) & cs) & al) & _ & H).
  apply bind_inv in H as (vs & _ & H). apply bind_inv in H as (s & _ & H). injection H as <-. cbn. eauto 10.
Qed.
Lemma os_found_upd losses its it x : os_found losses its -> (x = OINone \/ exists p c o, x = OIFound (losses it) p c o) -> os_found losses (upd it x its).
Proof. intros H Hx i. unfold upd. destruct (i =? it)%nat eqn:E; [apply Nat.eqb_eq in E; subst; exact Hx|apply H]. Qed.
Lemma os_iter_view now lg every it l pv cb o r ob vb cu pr ca tail Q :
  view r ob vb (Some cu) (Some pr) (Some ca) ->
  (forall r, view r (Some o) vb (Some (cu ++ [o])) (Some (pr ++ [pv])) (Some (ca ++ [cb])) -> does now lg tail r Q) ->
  does now lg (AStamp :: loss_acts every it l ++ [APrimal pv; ACached cb; AObjective o; AAppendLocal; ALog (Some it)] ++ tail) r Q.
Proof.
  intros B F.
  eapply does_cons; [apply do_stamp; exact B|]. clear r B. intros r B.
  eapply does_app; [eapply do_loss; exact B|]. clear r B. intros r B. cbn [app].
  eapply does_cons; [eapply do_primal; exact B|]. clear r B. intros r B.
  eapply does_cons; [eapply do_cached; exact B|]. clear r B. intros r B.
  eapply does_cons; [eapply do_objective; exact B|]. clear r B. intros r B.
  eapply does_cons; [eapply do_local; exact B|]. clear r B. intros r B.
  eapply does_cons; [apply do_log; exact B|]. exact F.
Qed.
Lemma os_loop_view {X Y} ceq solve prm (Xs : list X) (Ys : list Y) gt (losses : nat -> Qc) k : forall it bm sw st st' reason bm',
  os_loop ceq solve prm Xs Ys gt k bm sw st = Ok (st', reason, bm') ->
  exists its, os_found losses its /\
  forall now lg every r ob vb, view r ob vb (Some (o_curve st)) (Some (o_primal st)) (Some (o_cached st)) -> ob = o_obj st ->
    does now lg (os_prog every its k it (can sw)) r
      (fun r => exists vb', view r (o_obj st') vb' (Some (o_curve st')) (Some (o_primal st')) (Some (o_cached st'))).
Proof.
  induction k as [|k IH]; intros it bm sw st st' reason bm' H; cbn [os_loop] in H.
  - injection H as <- _ _. exists (fun _ => OINone). split; [intros i; auto|]. intros now lg every r ob vb V E.
    apply does_nil. exists vb. subst. exact V.
  - apply bind_inv in H as (c & _ & H).
    assert (Step : forall cb q st0 st1 , os_step solve prm (length Xs) cb q st0 = Ok st1 ->
       o_curve st0 = o_curve st -> o_primal st0 = o_primal st -> o_cached st0 = o_cached st -> o_obj st0 = o_obj st ->
       os_loop ceq solve prm Xs Ys gt k bm sw st1 = Ok (st', reason, bm') ->
       exists its, os_found losses its /\
        forall now lg every r ob vb, view r ob vb (Some (o_curve st)) (Some (o_primal st)) (Some (o_cached st)) -> ob = o_obj st ->
          does now lg (os_prog every its (S k) it (can sw)) r
          (fun r => exists vb', view r (o_obj st') vb' (Some (o_curve st')) (Some (o_primal st')) (Some (o_cached st')))).
    { intros cb q st0 st1 Es E1 E2 E3 E4 El. destruct (os_step_view _ _ _ _ _ _ _ Es) as (pv & ov & F1 & F2 & F3 & F4).
      destruct (IH (S it) _ _ _ _ _ _ El) as (its & Hf & V'). exists (upd it (OIFound (losses it) pv cb ov) its). split.
      - apply os_found_upd; [exact Hf|]. right. eauto.
      - intros now lg every r ob vb V E. cbn [os_prog]. rewrite upd_same. eapply os_iter_view; [exact V|]. clear r V. intros r V.
        rewrite (os_prog_ext _ _ its) by (intros i Hi; apply upd_later; exact Hi).
        rewrite E1 in F1. rewrite E2 in F2. rewrite E3 in F3. rewrite <- F1, <- F2, <- F3 in V.
        apply (V' now lg every r _ _ V). congruence. }
    destruct c as [q|].
    + apply bind_inv in H as (st1 & Es & H). eapply Step; eauto.
    + apply bind_inv in H as (rr & _ & H). destruct rr as [(Yh & q)|].
      * apply bind_inv in H as (cache & _ & H). apply bind_inv in H as (st1 & Es & H). eapply Step; [exact Es|reflexivity|reflexivity|reflexivity|reflexivity|exact H].
      * destruct sw as [bm2|].
        -- destruct (IH (S it) _ _ _ _ _ _ H) as (its & Hf & V'). exists (upd it OINone its). split; [apply os_found_upd; auto|].
           intros now lg every r ob vb V E. cbn [os_prog can]. rewrite upd_same.
           rewrite (os_prog_ext _ _ its) by (intros i Hi; apply upd_later; exact Hi). apply (V' now lg every r _ _ V E).
        -- injection H as <- _ _. exists (fun _ => OINone). split; [intros i; auto|]. intros now lg every r ob vb V E. cbn [os_prog can].
           apply does_nil. exists vb. subst. exact V.
Qed.
Definition os_warm {Y} (ws : warm Y) : option (os_attrs Y) := match ws with Cold => None | Soft a | Warm a => Some a end.
Lemma os_link {X Y} ceq solve prm (bm : bmodel X Y) sw Xs Ys ws st reason (losses : nat -> Qc) :
  os_fit ceq solve prm bm sw Xs Ys ws = Ok (st, reason) ->
  exists its p, os_found losses its /\
  forall now lg every k b,
    (forall a, ws = Soft a \/ ws = Warm a -> exists t0 ts, b_times b = Some (t0 :: ts) /\ b_obj b = Some (oa_curve a) /\ b_primal b = Some (oa_primal a) /\ b_cached b = Some (oa_cached a)) ->
    exists r, os_curves now lg every (o_max_iter prm) (can sw) (match ws with Cold => false | _ => true end) its p None k b = Ok r /\
      b_obj (r_book r) = Some (o_curve st) /\ b_primal (r_book r) = Some (o_primal st) /\ b_cached (r_book r) = Some (o_cached st).
Proof.
  intros H. unfold os_fit in H. apply bind_inv in H as (st0 & E0 & H). apply bind_inv in H as (gt & _ & H). apply bind_inv in H as (((st1 & re) & bm') & E1 & H).
  apply bind_inv in H as (p & _ & H). apply bind_inv in H as (obj & Eo & H). injection H as <- <-. cbn.
  destruct (os_loop_view _ _ _ _ _ _ losses _ 0%nat _ _ _ _ _ _ E1) as (its & Hf & V). exists its, p. split; [exact Hf|]. intros now lg every k b Hb.
  assert (Es : o_obj st1 = Some obj) by (destruct (o_obj st1); [injection Eo as <-; reflexivity|discriminate Eo]).
  unfold os_curves, fit_acts. cbn [until]. set (r0 := if match ws with Cold => false | _ => true end then _ else _).
  assert (V0 : view r0 (o_obj st0) false (Some (o_curve st0)) (Some (o_primal st0)) (Some (o_cached st0))).
  { subst r0. destruct ws as [|a|a].
    - injection E0 as <-. repeat split; cbn; eauto.
    - injection E0 as <-. destruct (Hb a (or_introl eq_refl)) as (t0 & ts & T & O & P & C). repeat split; cbn; eauto.
    - cbn in E0. destruct (oa_cons a); [|discriminate E0]. injection E0 as <-. destruct (Hb a (or_intror eq_refl)) as (t0 & ts & T & O & P & C). repeat split; cbn; eauto. }
  destruct (V now lg every r0 _ _ V0 eq_refl) as (r1 & A & vb' & B). rewrite A. cbn [bind]. rewrite Es in B.
  enough (X1 : does now lg [AStamp; APrimal p; AAppendLocal; ACached false; ALog None] r1 (fun r => view r (Some obj) vb' (Some (o_curve st1 ++ [obj])) (Some (o_primal st1 ++ [p])) (Some (o_cached st1 ++ [false])))).
  { destruct X1 as (r2 & A2 & (_ & B2 & C2 & D2 & _)). exists r2. auto. }
  clear A. revert r1 B. intros r B.
  eapply does_cons; [eapply do_stamp; exact B|]. clear r B. intros r B.
  eapply does_cons; [eapply do_primal; exact B|]. clear r B. intros r B.
  eapply does_cons; [eapply do_local; exact B|]. clear r B. intros r B.
  eapply does_cons; [eapply do_cached; exact B|]. clear r B. intros r B.
  apply do_log. exact B.
Qed.
