(** What the logger sees; the readings of the clock; interrupts. *)
From Coq Require Import Sorted Lia.
From Verif Require Import Base.QcBase Base.Sums Model.Curves Model.PlotLearning Spec.CurveSpec Proofs.Arrays Proofs.CurveProofs
  Proofs.CurveProofs2 Proofs.CurveProofs3 Proofs.CurveProofs4 Proofs.CurveProofs5.

(** ** the books the logger sees *)
Lemma calls_at now l : forall r r', acts now true l r = Ok r' ->
  exists calls, r_log r' = r_log r ++ calls /\
    forall c, In c calls -> exists l1 l2 r1, l = l1 ++ ALog (fst c) :: l2 /\ acts now true l1 r = Ok r1 /\ snd c = r_book r1.
Proof.
  induction l as [|a l IH]; intros r r' H.
  - injection H as <-. exists []. rewrite app_nil_r. split; [reflexivity|intros c []].
  - cbn [acts] in H. apply bind_inv in H as (r1 & H1 & H2). pose proof (act1_log now true _ _ _ H1) as L.
    destruct (IH _ _ H2) as (calls & E & F). rewrite L, <- app_assoc in E. eexists. split; [exact E|].
    intros c Hc. apply in_app_or in Hc as [Hc|Hc].
    + apply in_map_iff in Hc as (i & <- & Hi). destruct a; cbn in Hi; try tauto. destruct Hi as [->|[]].
      exists [], l, r. repeat split.
    + destruct (F c Hc) as (l1 & l2 & r2 & -> & A & B). exists (a :: l1), l2, r2. repeat split; [|exact B].
      cbn [acts]. rewrite H1. exact A.
Qed.

Definition bal (f g : act -> bool) (l : list act) : Prop := forall i l1 l2, l = l1 ++ ALog (Some i) :: l2 -> cnt f l1 = cnt g l1.
Lemma bal_nil f g : bal f g [].
Proof. intros i [|] l2 H; discriminate. Qed.
Lemma bal_log f g i l : f (ALog i) = g (ALog i) -> bal f g l -> bal f g (ALog i :: l).
Proof.
  intros Hi Hl j [|a l1] l2 H; [reflexivity|]. injection H as <- H. rewrite !cnt_cons, Hi, (Hl _ _ _ H). reflexivity.
Qed.
Lemma bal_block f g a l : ids a = [] -> cnt f a = cnt g a -> bal f g l -> bal f g (a ++ l).
Proof.
  intros Ha Hc Hl j l1 l2 H.
  assert (X : exists l1', l1 = a ++ l1' /\ l = l1' ++ ALog (Some j) :: l2).
  { clear Hc Hl. revert l1 H. induction a as [|x a IH]; intros l1 H.
    - exists l1. split; [reflexivity|exact H].
    - destruct l1 as [|y l1].
      + injection H as -> _. discriminate Ha.
      + injection H as <- H. rewrite ids_cons in Ha. apply app_eq_nil in Ha as [_ Ha]. destruct (IH Ha _ H) as (l1' & -> & E).
        exists l1'. split; [reflexivity|exact E]. }
  destruct X as (l1' & -> & E). rewrite !cnt_app, Hc, (Hl _ _ _ E). reflexivity.
Qed.
Lemma bal_until f g cut l : bal f g l -> bal f g (until cut l).
Proof.
  intros H i l1 l2 E. destruct cut as [j|]; cbn [until] in E; [|exact (H _ _ _ E)].
  apply (H i l1 (l2 ++ skipn j l)). rewrite <- (firstn_skipn j l) at 1. rewrite E, <- app_assoc. reflexivity.
Qed.
Definition isF (a : act) : bool := false.
Lemma cnt_isF l : cnt isF l = 0%nat.
Proof. unfold cnt, isF. induction l; auto. Qed.

Ltac blk := apply bal_block; [repeat (rewrite ?ids_cons, ?ids_app, ?loss_acts_ids); reflexivity|cn; la; reflexivity|].
Lemma ns_bal every its k : forall it sw, bal isS isO (ns_prog every its k it sw) /\ bal isP isO (ns_prog every its k it sw).
Proof.
  induction k as [|k IH]; intros it sw; cbn [ns_prog]; [split; apply bal_nil|].
  destruct (ns_acts_cnt every it (its it)) as (A & B & C & _). 
  split; (apply bal_block; [apply ns_acts_ids|congruence|]); (destruct (ni_stop (its it)); [destruct sw; [apply IH|apply bal_nil]|apply bal_log; [reflexivity|apply IH]]).
Qed.
Lemma os_bal every its k : forall it sw, bal isS isO (os_prog every its k it sw) /\ bal isP isO (os_prog every its k it sw) /\ bal isC isO (os_prog every its k it sw).
Proof.
  induction k as [|k IH]; intros it sw; cbn [os_prog]; [repeat split; apply bal_nil|].
  destruct (its it) as [|l p c o]; [destruct sw; [apply IH|repeat split; apply bal_nil]|].
  assert (E : forall r, AStamp :: loss_acts every it l ++ [APrimal p; ACached c; AObjective o; AAppendLocal; ALog (Some it)] ++ r =
    (AStamp :: loss_acts every it l ++ [APrimal p; ACached c; AObjective o; AAppendLocal]) ++ ALog (Some it) :: r).
  { intros r. cbn [app]. rewrite <- app_assoc. reflexivity. }
  rewrite E. destruct (IH (S it) sw) as (A & B & C).
  repeat split; blk; (apply bal_log; [reflexivity|assumption]).
Qed.
Lemma fwb_bal its k : forall it, bal isS isO (fwb_prog its k it) /\ bal isP isO (fwb_prog its k it).
Proof.
  induction k as [|k IH]; intros it; cbn [fwb_prog]; [split; apply bal_nil|].
  destruct (IH (S it)) as (A & B). split; blk; (apply bal_log; [reflexivity|destruct (fi_stop (its it)); [apply bal_nil|assumption]]).
Qed.
Lemma bal_fail f g e : bal f g [AFail e].
Proof. intros i [|a [|b l1]] l2 H; discriminate. Qed.
Lemma fwbc_bal check its k : forall it, bal isS isO (fwbc_prog check its k it) /\ bal isP isO (fwbc_prog check its k it).
Proof.
  induction k as [|k IH]; intros it; cbn [fwbc_prog]; [split; apply bal_nil|].
  destruct (IH (S it)) as (A & B).
  split; (apply bal_block; [destruct (_ && _); reflexivity|destruct (_ && _); reflexivity|]);
    (apply bal_log; [reflexivity|destruct (check =? 0)%nat; [apply bal_fail|destruct (fi_stop (its it)); [apply bal_nil|assumption]]]).
Qed.
Lemma sg_bal every its k : forall it, bal isS isO (sg_prog every its k it).
Proof.
  induction k as [|k IH]; intros it; cbn [sg_prog]; [apply bal_nil|]. destruct (si_break (its it)); [apply bal_nil|].
  rewrite app_assoc. blk. apply bal_log; [reflexivity|apply IH].
Qed.
Lemma lsg_bal every its k : forall it, bal isS isO (lsg_prog every its k it).
Proof.
  induction k as [|k IH]; intros it; cbn [lsg_prog]; [apply bal_nil|]. destruct (si_break (its it)).
  - intros i [|a [|b l1]] l2 H; discriminate.
  - assert (E : forall r, AStamp :: AAppendObj (si_obj (its it)) :: loss_acts every it (si_loss (its it)) ++ r =
      (AStamp :: AAppendObj (si_obj (its it)) :: loss_acts every it (si_loss (its it))) ++ r) by reflexivity.
    rewrite E. blk. apply bal_log; [reflexivity|apply IH].
Qed.

(** every curve that exists at the start is balanced against objective_curve_ *)
Lemma fit_agree now lg cut r0 body pre r : fit_acts now lg cut r0 body (pre ++ [ALog None]) = Ok r -> r_log r0 = [] -> ids pre = [] ->
  b_times (r_book r0) <> None ->
  (exists ts, b_times (r_book r0) = Some ts /\ length ts = 1%nat) -> b_obj (r_book r0) = Some [] ->
  (b_primal (r_book r0) = Some [] /\ bal isP isO body \/ b_primal (r_book r0) = None) ->
  (b_cached (r_book r0) = Some [] /\ bal isC isO body \/ b_cached (r_book r0) = None) ->
  bal isS isO body -> logs_agree r.
Proof.
  intros H L I _ (ts & T & LT) O Pr Ca SO. apply fit_inv in H. unfold logs_agree. destruct lg.
  2:{ destruct (acts_log now false _ _ _ H) as (c & E & M & _). rewrite L in E. cbn in E. rewrite E. destruct c; [constructor|discriminate M]. }
  destruct (calls_at now _ _ _ H) as (calls & E & F). rewrite L in E. cbn [app] in E. rewrite E.
  apply Forall_forall. intros c Hc Hn. destruct (F c Hc) as (l1 & l2 & r1 & Es & A & B).
  destruct (fst c) as [i|] eqn:Ei; [|congruence]. clear Hn.
  assert (X : exists l2', until cut body = l1 ++ ALog (Some i) :: l2').
  { clear - Es I. revert l1 Es. generalize (until cut body). intros bd; induction bd as [|x bd IH]; intros l1 Es; cbn [app] in Es.
    - exfalso. assert (J : ids (pre ++ [ALog None]) = ids (l1 ++ ALog (Some i) :: l2)) by (rewrite Es; reflexivity).
      rewrite !ids_app, I, !ids_cons in J. cbn in J. destruct (ids l1) as [|? [|]]; discriminate J.
    - destruct l1 as [|y l1].
      + injection Es as -> Es. exists bd. reflexivity.
      + injection Es as <- Es. destruct (IH _ Es) as (l2' & ->). exists l2'. reflexivity. }
  destruct X as (l2' & X).
  pose proof (bal_until _ _ cut _ SO _ _ _ X) as S1.
  destruct (acts_times now true _ _ _ _ A T) as (e & Ee & Le). destruct (acts_obj now true _ _ _ _ A O) as (o & Eo & Lo). cbn [app] in Eo.
  rewrite B. exists (ts ++ e), o. split; [exact Ee|]. split; [exact Eo|]. split; [rewrite app_length; lia|].
  pose proof (acts_none now true _ _ _ A) as (Np & Nc & _). split.
  - intros p Hp. destruct Pr as [[P0 PB]|P0].
    + destruct (acts_primal now true _ _ _ _ A P0) as (q & Eq & Lq). cbn [app] in Eq. rewrite Eq in Hp. injection Hp as <-.
      pose proof (bal_until _ _ cut _ PB _ _ _ X). lia.
    + rewrite (Np P0) in Hp. discriminate.
  - intros p Hp. destruct Ca as [[P0 PB]|P0].
    + destruct (acts_cached now true _ _ _ _ A P0) as (q & Eq & Lq). cbn [app] in Eq. rewrite Eq in Hp. injection Hp as <-.
      pose proof (bal_until _ _ cut _ PB _ _ _ X). lia.
    + rewrite (Nc P0) in Hp. discriminate.
Qed.

Lemma ns_logs now lg every max sw its p cut k b r : b_cached b = None ->
  ns_curves now lg every max sw None its p cut k b = Ok r -> logs_agree r.
Proof.
  intros C H. unfold ns_curves in H.
  refine (fit_agree now lg cut _ _ [AVerbose; AStamp; APrimal p; AAppendLocal] r H eq_refl eq_refl _ _ eq_refl _ _ (proj1 (ns_bal _ _ _ _ _))).
  - cbn; discriminate. - cbn; eauto. - left. split; [reflexivity|apply ns_bal]. - right. exact C.
Qed.
Lemma os_logs now lg every max sw its p cut k b r :
  os_curves now lg every max sw false its p cut k b = Ok r -> logs_agree r.
Proof.
  intros H. unfold os_curves in H.
  refine (fit_agree now lg cut _ _ [AStamp; APrimal p; AAppendLocal; ACached false] r H eq_refl eq_refl _ _ eq_refl _ _ (proj1 (os_bal _ _ _ _ _))).
  - cbn; discriminate. - cbn; eauto. - left. split; [reflexivity|apply os_bal]. - left. split; [reflexivity|apply os_bal].
Qed.
Lemma fw_logs now lg batch check max its p cut k b r : b_cached b = None ->
  fw_curves now lg batch check max its p cut k b = Ok r -> logs_agree r.
Proof.
  intros C H. unfold fw_curves in H.
  refine (fit_agree now lg cut _ _ [AStamp; APrimal p; AAppendLast] r H eq_refl eq_refl _ _ eq_refl _ _ _).
  - cbn; discriminate. - cbn; eauto. - left. split; [reflexivity|]. destruct batch; [apply fwb_bal|apply fwbc_bal]. - right. exact C.
  - destruct batch; [apply fwb_bal|apply fwbc_bal].
Qed.
Lemma sg_logs now lg every max its v cut k b r : b_cached b = None -> b_primal b = None ->
  sg_curves now lg every max false its v cut k b = Ok r -> logs_agree r.
Proof.
  intros C P H. unfold sg_curves in H. cbn [bind] in H.
  refine (fit_agree now lg cut _ _ [AStamp; AAppendObj v] r H eq_refl eq_refl _ _ eq_refl _ _ (sg_bal _ _ _ _)).
  - cbn; discriminate. - cbn; eauto. - right. exact P. - right. exact C.
Qed.
Lemma lsg_logs now lg every max its v cut k b r : b_cached b = None -> b_primal b = None ->
  lsg_curves now lg every max false its v cut k b = Ok r -> logs_agree r.
Proof.
  intros C P H. unfold lsg_curves in H. cbn [bind] in H.
  refine (fit_agree now lg cut _ _ [AStamp; AAppendObj v] r H eq_refl eq_refl _ _ eq_refl _ _ (lsg_bal _ _ _ _)).
  - cbn; discriminate. - cbn; eauto. - right. exact P. - right. exact C.
Qed.

(** ** the readings of the clock *)
Lemma acts_readings now lg l : forall r r' t0 ts, acts now lg l r = Ok r' -> b_times (r_book r) = Some (t0 :: ts) ->
  b_times (r_book r') = Some (t0 :: ts ++ map (fun i => now (r_clock r + i)%nat - t0) (seq 0 (cnt isS l))) /\
  r_clock r' = (r_clock r + cnt isS l)%nat.
Proof.
  induction l as [|a l IH]; intros r r' t0 ts H T.
  - injection H as <-. cbn. rewrite app_nil_r, Nat.add_0_r. auto.
  - cbn [acts] in H. apply bind_inv in H as (r1 & H1 & H2). pose proof (act1_stamp now lg _ _ _ _ _ H1 T) as E.
    destruct (IH _ _ _ _ H2 E) as (A & B). rewrite A, B, (act1_clock now lg _ _ _ H1), cnt_cons. destruct (isS a).
    + split; [|lia]. rewrite <- app_assoc. do 3 f_equal. cbn [Nat.add seq map app]. rewrite Nat.add_0_r. f_equal.
      rewrite <- seq_shift, map_map. apply map_ext. intros i. do 2 f_equal. lia.
    + rewrite app_nil_r, !Nat.add_0_r. cbn. auto.
Qed.
Lemma fit_readings now lg cut r0 body final r k : fit_acts now lg cut r0 body final = Ok r ->
  b_times (r_book r0) = Some [now k] -> r_clock r0 = S k ->
  exists n, b_times (r_book r) = Some (now k :: map (fun i => now (k + 1 + i)%nat - now k) (seq 0 n)) /\ r_clock r = (k + 1 + n)%nat.
Proof.
  intros H T K. apply fit_inv in H. destruct (acts_readings _ _ _ _ _ _ _ H T) as (A & B). rewrite K in A, B. cbn [app] in A.
  replace (S k) with (k + 1)%nat in A, B by lia. eauto.
Qed.

(** ** KeyboardInterrupt *)
Lemma sg_plot_cut now lg every max its v cut k b r : b_cached b = None -> b_primal b = None ->
  sg_curves now lg every max false its v cut k b = Ok r ->
  exists ts o, b_times (r_book r) = Some ts /\ b_obj (r_book r) = Some o /\ (0 < length o)%nat /\
    (length ts = S (length o) \/ length ts = S (S (length o))) /\
    ((2 <= length o)%nat -> exists d, plot_learning true every (r_book r) = Ok d /\ draws every (r_book r) (minutes ts (length o)) d).
Proof.
  intros C P H. pose proof (sg_interrupted now lg every max false its v cut k b r 0 C P ltac:(discriminate) (fun _ => eq_refl) H) as A.
  assert (B : exists x, curves_aligned x (r_book r) /\ (x = 0 \/ x = 1)%nat) by (destruct A; eauto).
  destruct B as (x & Al & Hx). pose proof Al as (ts & o & T & O & L & _). exists ts, o. split; [exact T|]. split; [exact O|]. split.
  { unfold sg_curves in H. cbn [bind] in H. apply fit_inv in H. destruct (acts_obj now lg _ _ _ [] H eq_refl) as (e & E & Le). cbn [app] in E.
    rewrite E in O. injection O as <-. rewrite Le, cnt_app. cn. lia. }
  split; [lia|]. intros H2. exact (draws_time x every _ ts o Al T O H2).
Qed.
Lemma lsg_plot_cut now lg every max its v cut k b r : b_cached b = None -> b_primal b = None ->
  lsg_curves now lg every max false its v cut k b = Ok r ->
  exists ts o, b_times (r_book r) = Some ts /\ b_obj (r_book r) = Some o /\ (0 < length o)%nat /\
    (length ts = S (length o) \/ length ts = S (S (length o))) /\
    ((2 <= length o)%nat -> exists d, plot_learning true every (r_book r) = Ok d /\ draws every (r_book r) (minutes ts (length o)) d).
Proof.
  intros C P H. pose proof (lsg_interrupted now lg every max false its v cut k b r 0 C P ltac:(discriminate) (fun _ => eq_refl) H) as A.
  assert (B : exists x, curves_aligned x (r_book r) /\ (x = 0 \/ x = 1)%nat) by (destruct A; eauto).
  destruct B as (x & Al & Hx). pose proof Al as (ts & o & T & O & L & _). exists ts, o. split; [exact T|]. split; [exact O|]. split.
  { unfold lsg_curves in H. cbn [bind] in H. apply fit_inv in H. destruct (acts_obj now lg _ _ _ [] H eq_refl) as (e & E & Le). cbn [app] in E.
    rewrite E in O. injection O as <-. rewrite Le, cnt_app. cn. lia. }
  split; [lia|]. intros H2. exact (draws_time x every _ ts o Al T O H2).
Qed.
(** the three others, at the long computations of an iteration *)
Lemma os_V every its m : forall it sw j, nth_error (os_prog every its m it sw) j = Some AStamp ->
  cnt isO (firstn j (os_prog every its m it sw)) = 0%nat -> cnt isV (firstn j (os_prog every its m it sw)) = 0%nat.
Proof.
  induction m as [|m IH]; intros it sw j N O1; cbn [os_prog] in *; [destruct j; discriminate N|].
  destruct (its it) as [|l q c o].
  - destruct sw; [apply IH with (1 := N) (2 := O1)|destruct j; discriminate N].
  - destruct j as [|j]; [reflexivity|]. cbn [firstn nth_error] in *. rewrite cnt_cons in *. cbn [isV isO] in *. cbn [Nat.add] in *.
    unfold loss_acts in *. destruct (negb (every =? 0)%nat && (it mod every =? 0)%nat).
    + do 8 (destruct j as [|j]; [cbn in *; try discriminate; try reflexivity|]). 
      all: cbn in *; try discriminate; try (rewrite !cnt_cons in *; cbn in *; discriminate).
    + do 6 (destruct j as [|j]; [cbn in *; try discriminate; try reflexivity|]).
      all: cbn in *; try discriminate; try (rewrite !cnt_cons in *; cbn in *; discriminate).
Qed.
Lemma os_interrupted now lg every max sw its p j k b r :
  nth_error (os_prog every its max 0 sw) j = Some AStamp ->
  os_curves now lg every max sw false its p (Some j) k b = Ok r ->
  curves_aligned 0 (r_book r) /\ exists o, b_obj (r_book r) = Some o /\ (2 <= length o)%nat.
Proof.
  intros N H. destruct (os_stamp_cut _ _ _ _ _ _ N) as (n & S1 & O1 & P1 & C1).
  destruct (os_aligned_cut now lg every max sw false its p (Some j) k b r 0 0 ltac:(discriminate) (fun _ => eq_refl)
     ltac:(cbn [until]; lia) ltac:(cbn [until]; lia) ltac:(cbn [until]; lia) H) as (A & (o & O & L) & V).
  split; [exact A|]. exists o. split; [exact O|]. cbn [until] in L, V. rewrite O1 in L.
  destruct n; [|lia]. exfalso. apply V, os_V; [exact N|exact O1].
Qed.
Lemma fw_interrupted now lg (batch : bool) check max its p j (v : Qc) k b r : b_cached b = None ->
  nth_error (if batch then fwb_prog its max 0 else fwbc_prog check its max 0) j = Some (APrimal v) ->
  fw_curves now lg batch check max its p (Some j) k b = Ok r ->
  curves_aligned 0 (r_book r) /\ exists o, b_obj (r_book r) = Some o /\ (2 <= length o)%nat.
Proof.
  intros C N H. destruct (fw_primal_cut batch check its max j v N) as (n & S1 & O1 & P1).
  exact (fw_aligned_cut now lg batch check max its p (Some j) k b r 0 C ltac:(cbn [until]; lia) ltac:(cbn [until]; lia) H).
Qed.
Lemma ns_interrupted now lg every max sw its p j a k b r : b_cached b = None ->
  nth_error (ns_prog every its max 0 sw) j = Some a -> (a = ABatch \/ (exists v : Qc, a = AObjective v) \/ a = AAppendLocal) ->
  ns_curves now lg every max sw None its p (Some j) k b = Ok r -> curves_aligned 1 (r_book r).
Proof.
  intros C N Ha H. assert (S0 : searching a = true) by (destruct Ha as [->|[(v & ->)| ->]]; reflexivity).
  destruct (ns_search_cut _ _ _ _ _ _ _ N S0) as (n & S1 & O1 & P1).
  refine (proj1 (ns_aligned_cut now lg every max sw None its p (Some j) k b r 0 1 C _ _ _ _ H)); cbn [until]; try lia; congruence.
Qed.
