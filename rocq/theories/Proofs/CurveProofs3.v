(** Alignment, order of the time stamps, number of losses. *)
From Coq Require Import Sorted Lia.
From Verif Require Import Base.QcBase Base.Sums Model.Curves Model.PlotLearning Spec.CurveSpec Proofs.Arrays
  Proofs.CurveProofs Proofs.CurveProofs2.

Section A.
Variable now : nat -> Qc.
Variable lg : bool.

Lemma acts_aligned extra more l r0 r ts o : acts now lg l r0 = Ok r -> b_times (r_book r0) = Some ts -> b_obj (r_book r0) = Some o ->
  length ts = (S (length o) + extra)%nat -> cnt isS l = (cnt isO l + more)%nat ->
  (forall p, b_primal (r_book r0) = Some p -> length p = length o /\ cnt isP l = cnt isO l) ->
  b_cached (r_book r0) = None -> curves_aligned (extra + more) (r_book r).
Proof.
  intros H T O L C P K. destruct (acts_times _ _ _ _ _ _ H T) as (e & Te & Le). destruct (acts_obj _ _ _ _ _ _ H O) as (f & Of & Lf).
  destruct (acts_none _ _ _ _ _ H) as (NP & NC & _).
  exists (ts ++ e), (o ++ f). split; [exact Te|]. split; [exact Of|]. split; [rewrite !app_length; lia|]. split.
  - intros p Hp. destruct (b_primal (r_book r0)) as [p0|] eqn:E.
    + destruct (P _ eq_refl) as (L1 & L2). destruct (acts_primal _ _ _ _ _ _ H E) as (g & Pg & Lg).
      rewrite Pg in Hp. injection Hp as <-. rewrite !app_length. lia.
    + rewrite (NP eq_refl) in Hp. discriminate.
  - intros c Hc. rewrite (NC K) in Hc. discriminate.
Qed.
Lemma acts_obj_length l r0 r o : acts now lg l r0 = Ok r -> b_obj (r_book r0) = Some o ->
  exists o', b_obj (r_book r) = Some o' /\ length o' = (length o + cnt isO l)%nat.
Proof. intros H E. destruct (acts_obj _ _ _ _ _ _ H E) as (f & F & L). exists (o ++ f). rewrite app_length. auto. Qed.

(** where the first entries come from *)
Definition isB (a : act) : bool := match a with ABatch => true | _ => false end.
Lemma acts_verbose l : forall r r', acts now lg l r = Ok r' -> r_verbose r' = true -> r_verbose r = true \/ cnt isB l <> 0%nat.
Proof.
  induction l as [|a l IH]; intros r r' H V.
  - injection H as <-. auto.
  - cbn in H. apply bind_inv in H as (r1 & H1 & H2). destruct (IH _ _ H2 V) as [V1|C].
    + destruct a; cbn in H1; try (right; rewrite cnt_cons; cbn; lia); left.
      all: repeat match type of H1 with
                  | match ?x with _ => _ end = _ => destruct x; try discriminate H1
                  | bind ?x _ = _ => destruct x; cbn in H1; try discriminate H1
                  | (if ?x then _ else _) = _ => destruct x eqn:?; try discriminate H1
                  end; try discriminate H1; injection H1 as <-; auto.
      destruct lg; auto.
    + right. rewrite cnt_cons. lia.
Qed.
Definition isV (a : act) : bool := match a with AObjective _ => true | _ => false end.
Lemma acts_objective l : forall r r', acts now lg l r = Ok r' -> r_objective r' <> None -> r_objective r <> None \/ cnt isV l <> 0%nat.
Proof.
  induction l as [|a l IH]; intros r r' H V.
  - injection H as <-. auto.
  - cbn in H. apply bind_inv in H as (r1 & H1 & H2). destruct (IH _ _ H2 V) as [V1|C].
    + destruct a; cbn in H1; try (right; rewrite cnt_cons; cbn; lia); left.
      all: repeat match type of H1 with
                  | match ?x with _ => _ end = _ => destruct x eqn:?; try discriminate H1
                  | bind ?x _ = _ => destruct x; cbn in H1; try discriminate H1
                  | (if ?x then _ else _) = _ => destruct x eqn:?; try discriminate H1
                  end; try discriminate H1; injection H1 as <-; auto.
      all: try (destruct lg; auto; fail). cbn in V1. congruence.
    + right. rewrite cnt_cons. lia.
Qed.
End A.

Lemma loss_acts_B every it v f : f ALossInit = false -> f (ALoss v) = false -> cnt f (loss_acts every it v) = 0%nat.
Proof. intros A B. unfold loss_acts. destruct (_ && _); cn; rewrite ?A, ?B; reflexivity. Qed.
Lemma ns_prog_pos every its k it sw : cnt isB (ns_prog every its k it sw) <> 0%nat -> cnt isO (ns_prog every its k it sw) <> 0%nat.
Proof.
  destruct k; cbn [ns_prog]; [auto|]. intros _. rewrite cnt_app. destruct (ns_acts_cnt every it (its it)) as (_ & -> & _). lia.
Qed.
Lemma os_prog_pos every its k : forall it sw, cnt isV (os_prog every its k it sw) <> 0%nat -> cnt isO (os_prog every its k it sw) <> 0%nat.
Proof.
  induction k as [|k IH]; intros it sw; cbn [os_prog]; [auto|]. destruct (its it).
  - destruct sw; auto.
  - intros _. cn. lia.
Qed.

Section Fits.
Variable now : nat -> Qc.
Variable lg : bool.

Lemma ns_verbose every max sw warm its p cut k b r :
  ns_curves now lg every max sw warm its p cut k b = Ok r -> cnt isB (until cut (ns_prog every its max 0 sw)) <> 0%nat.
Proof.
  intros H. unfold ns_curves in H. apply fit_inv in H.
  change [AVerbose; AStamp; APrimal p; AAppendLocal; ALog None] with ([AVerbose] ++ [AStamp; APrimal p; AAppendLocal; ALog None]) in H.
  rewrite acts_app in H. apply bind_inv in H as (r1 & H1 & H2). cbn in H2.
  destruct (r_verbose r1) eqn:V; [|discriminate H2].
  destruct (acts_verbose _ _ _ _ _ H1 V) as [V0|]; [|assumption]. destruct warm; discriminate V0.
Qed.
Lemma ns_aligned_cut every max sw warm its p cut k b r extra more :
  b_cached b = None -> (warm <> None -> curves_aligned extra b) -> (warm = None -> extra = 0%nat) ->
  cnt isS (until cut (ns_prog every its max 0 sw)) = (cnt isO (until cut (ns_prog every its max 0 sw)) + more)%nat ->
  cnt isP (until cut (ns_prog every its max 0 sw)) = cnt isO (until cut (ns_prog every its max 0 sw)) ->
  ns_curves now lg every max sw warm its p cut k b = Ok r ->
  curves_aligned (extra + more) (r_book r) /\
  exists o, b_obj (r_book r) = Some o /\ (1 + cnt isO (until cut (ns_prog every its max 0 sw)) <= length o)%nat.
Proof.
  intros K W Z A C H. unfold ns_curves in H. apply fit_inv in H.
  set (pr := until cut _) in *. clearbody pr.
  set (l := pr ++ _) in H.
  assert (CS : cnt isS l = (cnt isO l + more)%nat) by (unfold l; cn; lia).
  assert (CP : cnt isP l = cnt isO l) by (unfold l; cn; lia).
  assert (CO : cnt isO l = (1 + cnt isO pr)%nat) by (unfold l; cn; lia). clearbody l.
  destruct warm as [v|].
  - destruct (W ltac:(discriminate)) as (ts & o & T & O & L & P & _). split.
    + eapply acts_aligned; [exact H|exact T|exact O|exact L|exact CS| |exact K]. intros p0 E. split; [apply P; exact E|exact CP].
    + destruct (acts_obj_length _ _ _ _ _ _ H O) as (o' & E & L'). exists o'. split; [exact E|lia].
  - rewrite (Z eq_refl). split.
    + eapply acts_aligned; [exact H|reflexivity|reflexivity|reflexivity|exact CS| |exact K]. intros p0 E. injection E as <-. split; [reflexivity|exact CP].
    + destruct (acts_obj_length _ _ _ _ _ [] H eq_refl) as (o' & E & L'). exists o'. split; [exact E|lia].
Qed.
Lemma ns_aligned every max sw warm its p k b r extra :
  b_cached b = None -> (warm <> None -> curves_aligned extra b) -> (warm = None -> extra = 0%nat) ->
  ns_curves now lg every max sw warm its p None k b = Ok r ->
  curves_aligned extra (r_book r) /\ exists o, b_obj (r_book r) = Some o /\ (2 <= length o)%nat.
Proof.
  intros K W Z H. destruct (ns_prog_cnt every its max 0 sw) as (n & A & B & C & D & _).
  pose proof (ns_prog_pos _ _ _ _ _ (ns_verbose _ _ _ _ _ _ _ _ _ _ H)) as Pos.
  destruct (ns_aligned_cut every max sw warm its p None k b r extra 0 K W Z ltac:(cbn [until]; lia) ltac:(cbn [until]; lia) H) as (E & o & O & L).
  rewrite Nat.add_0_r in E. split; [exact E|]. exists o. split; [exact O|]. cbn [until] in L. lia.
Qed.

Lemma os_aligned_cut every max sw warm its p cut k b r extra more :
  (warm = true -> curves_aligned extra b) -> (warm = false -> extra = 0%nat) ->
  cnt isS (until cut (os_prog every its max 0 sw)) = (cnt isO (until cut (os_prog every its max 0 sw)) + more)%nat ->
  cnt isP (until cut (os_prog every its max 0 sw)) = cnt isO (until cut (os_prog every its max 0 sw)) ->
  cnt isC (until cut (os_prog every its max 0 sw)) = cnt isO (until cut (os_prog every its max 0 sw)) ->
  os_curves now lg every max sw warm its p cut k b = Ok r ->
  curves_aligned (extra + more) (r_book r) /\
  (exists o, b_obj (r_book r) = Some o /\ (1 + cnt isO (until cut (os_prog every its max 0 sw)) <= length o)%nat) /\
  cnt isV (until cut (os_prog every its max 0 sw)) <> 0%nat.
Proof.
  intros W Z A B C H. unfold os_curves in H. apply fit_inv in H.
  set (pr := until cut _) in *. clearbody pr.
  change [AStamp; APrimal p; AAppendLocal; ACached false; ALog None] with ([AStamp; APrimal p] ++ [AAppendLocal] ++ [ACached false] ++ [ALog None]) in H.
  rewrite !app_assoc, acts_app in H. apply bind_inv in H as (r3 & H & H3). rewrite acts_app in H. apply bind_inv in H as (r2 & H & H2).
  rewrite acts_app in H. apply bind_inv in H as (r1 & H & H1).
  assert (Pos : cnt isV pr <> 0%nat).
  { cbn in H1. destruct (r_objective r1) eqn:V; [|discriminate H1].
    destruct (acts_objective _ _ _ _ _ H ltac:(congruence)) as [V0|V0]; [destruct warm; exfalso; apply V0; reflexivity|].
    revert V0. cn. cbn [isV]. lia. }
  set (r0 := if warm then _ else _) in H.
  assert (HH : acts now lg (((pr ++ [AStamp; APrimal p]) ++ [AAppendLocal]) ++ [ACached false]) r0 = Ok r3).
  { rewrite acts_app, acts_app, H. cbn [bind]. rewrite H1. cbn [bind]. exact H2. }
  set (l := (_ ++ [AAppendLocal]) ++ _) in HH.
  assert (CS : cnt isS l = (cnt isO l + more)%nat) by (unfold l; cn; lia).
  assert (CP : cnt isP l = cnt isO l) by (unfold l; cn; lia).
  assert (CC : cnt isC l = cnt isO l) by (unfold l; cn; lia).
  assert (CO : cnt isO l = (1 + cnt isO pr)%nat) by (unfold l; cn; lia). clearbody l.
  assert (Er : r_book r = r_book r3).
  { cbn in H3. injection H3 as <-. destruct lg; reflexivity. }
  rewrite Er.
  assert (EC : exists c, b_cached (r_book r3) = Some (c ++ [false])).
  { cbn in H2. destruct r1 as [[bt bo bp bc bl] k1 ob vb lo]. cbn in H2, H1. destruct ob, bo; cbn in H1; try discriminate H1.
    injection H1 as <-. cbn in H2. destruct bc as [c|]; cbn in H2; [|discriminate H2]. injection H2 as <-. exists c. reflexivity. }
  assert (S0 : exists ts o, b_times (r_book r0) = Some ts /\ b_obj (r_book r0) = Some o /\ length ts = (S (length o) + extra)%nat /\
     (forall q, b_primal (r_book r0) = Some q -> length q = length o) /\
     (forall c, b_cached (r_book r0) = Some c -> length c = length o /\ exists q, b_primal (r_book r0) = Some q)).
  { subst r0. destruct warm.
    - destruct (W eq_refl) as (ts & o & T & O & L & P & Q). exists ts, o. repeat split; auto; destruct (Q _ H0); tauto.
    - exists [now k], []. rewrite (Z eq_refl). split; [reflexivity|]. split; [reflexivity|]. split; [reflexivity|]. split.
      + intros q E. injection E as <-. reflexivity.
      + intros c E. injection E as <-. split; [reflexivity|exists []; reflexivity]. }
  clearbody r0. destruct S0 as (ts & o & T & O & L & P & Q).
  destruct (acts_times _ _ _ _ _ _ HH T) as (e & Te & Le). destruct (acts_obj _ _ _ _ _ _ HH O) as (f & Of & Lf).
  destruct (acts_none _ _ _ _ _ HH) as (NP & NC & _).
  split; [|split; [exists (o ++ f); rewrite app_length; split; [exact Of|lia]|exact Pos]].
  exists (ts ++ e), (o ++ f). split; [exact Te|]. split; [exact Of|]. split; [rewrite !app_length; lia|]. split.
  - intros q Hq. destruct (b_primal (r_book r0)) as [p0|] eqn:E.
    + destruct (acts_primal _ _ _ _ _ _ HH E) as (g & Pg & Lg). specialize (P _ eq_refl).
      rewrite Pg in Hq. injection Hq as <-. rewrite !app_length. lia.
    + rewrite (NP eq_refl) in Hq. discriminate.
  - intros c Hc. destruct EC as (c1 & EC). rewrite EC in Hc. injection Hc as <-.
    destruct (b_cached (r_book r0)) as [c0|] eqn:E; [|rewrite (NC eq_refl) in EC; discriminate].
    destruct (Q _ eq_refl) as (L1 & q & Eq). destruct (acts_cached _ _ _ _ _ _ HH E) as (g & Cg & Lg).
    rewrite EC in Cg. injection Cg as Cg. split; [rewrite Cg, !app_length; lia|]. split.
    + destruct (acts_primal _ _ _ _ _ _ HH Eq) as (g' & Pg & _). eauto.
    + intros _. rewrite last_last. reflexivity.
Qed.
Lemma os_aligned every max sw warm its p k b r extra :
  (warm = true -> curves_aligned extra b) -> (warm = false -> extra = 0%nat) ->
  os_curves now lg every max sw warm its p None k b = Ok r ->
  curves_aligned extra (r_book r) /\ exists o, b_obj (r_book r) = Some o /\ (2 <= length o)%nat.
Proof.
  intros W Z H. destruct (os_prog_cnt every its max 0 sw) as (n & m & A & B & C & D & _).
  destruct (os_aligned_cut every max sw warm its p None k b r extra 0 W Z ltac:(cbn [until]; lia) ltac:(cbn [until]; lia) ltac:(cbn [until]; lia) H) as (E & (o & O & L) & V).
  rewrite Nat.add_0_r in E. split; [exact E|]. exists o. split; [exact O|]. cbn [until] in L, V. apply os_prog_pos in V. lia.
Qed.

Definition fw_prog (batch : bool) (check : nat) (its : nat -> fw_iter) (max : nat) : list act :=
  if batch then fwb_prog its max 0 else fwbc_prog check its max 0.
Lemma fw_prog_cnt batch check its max : exists n, cnt isS (fw_prog batch check its max) = n /\ cnt isO (fw_prog batch check its max) = n /\ cnt isP (fw_prog batch check its max) = n.
Proof.
  unfold fw_prog. destruct batch; [destruct (fwb_prog_cnt its max 0) as (n & ? & ? & ? & _)|destruct (fwbc_prog_cnt check its max 0) as (n & ? & ? & ? & _)]; exists n; auto.
Qed.
Lemma fw_aligned_cut batch check max its p cut k b r more :
  b_cached b = None ->
  cnt isS (until cut (fw_prog batch check its max)) = (cnt isO (until cut (fw_prog batch check its max)) + more)%nat ->
  cnt isP (until cut (fw_prog batch check its max)) = cnt isO (until cut (fw_prog batch check its max)) ->
  fw_curves now lg batch check max its p cut k b = Ok r ->
  curves_aligned more (r_book r) /\ exists o, b_obj (r_book r) = Some o /\ (2 <= length o)%nat.
Proof.
  intros K A C H. unfold fw_curves in H. fold (fw_prog batch check its max) in H. apply fit_inv in H.
  set (pr := until cut _) in *. clearbody pr.
  assert (Pos : cnt isO pr <> 0%nat).
  { intros B. change [AStamp; APrimal p; AAppendLast; ALog None] with ([AStamp; APrimal p] ++ [AAppendLast; ALog None]) in H.
    rewrite app_assoc, acts_app in H. apply bind_inv in H as (r1 & H1 & H2).
    destruct (acts_obj_length _ _ _ _ _ [] H1 eq_refl) as (o' & E & L'). revert L'. cn. rewrite B. cbn. intros L'.
    destruct o'; [|discriminate L']. cbn in H2. rewrite E in H2. discriminate H2. }
  set (l := pr ++ _) in H.
  assert (CS : cnt isS l = (cnt isO l + more)%nat) by (unfold l; cn; lia).
  assert (CP : cnt isP l = cnt isO l) by (unfold l; cn; lia).
  assert (CO : (2 <= cnt isO l)%nat) by (unfold l; cn; lia). clearbody l.
  split.
  - change more with (0 + more)%nat. eapply acts_aligned; [exact H|reflexivity|reflexivity|reflexivity|exact CS| |exact K]. intros p0 E. injection E as <-. split; [reflexivity|exact CP].
  - destruct (acts_obj_length _ _ _ _ _ [] H eq_refl) as (o' & E & L'). exists o'. split; [exact E|lia].
Qed.
Lemma fw_aligned batch check max its p k b r :
  b_cached b = None -> fw_curves now lg batch check max its p None k b = Ok r ->
  curves_aligned 0 (r_book r) /\ exists o, b_obj (r_book r) = Some o /\ (2 <= length o)%nat.
Proof.
  intros K H. destruct (fw_prog_cnt batch check its max) as (n & A & B & C).
  apply (fw_aligned_cut _ _ _ _ _ _ _ _ _ 0 K) in H; cbn [until]; auto; lia.
Qed.

(** in every prefix there are at least as many stamps as objectives *)
Definition stamped (l : list act) : Prop := forall j, (cnt isO (firstn j l) <= cnt isS (firstn j l) <= cnt isO (firstn j l) + 1)%nat.
Lemma until_stamped cut l : stamped l -> (cnt isO (until cut l) <= cnt isS (until cut l) <= cnt isO (until cut l) + 1)%nat.
Proof.
  intros H. destruct cut as [j|]; cbn [until]; [apply H|]. specialize (H (length l)). rewrite firstn_all in H. exact H.
Qed.
Lemma stamped_nil : stamped [].
Proof. intros j. rewrite firstn_nil. cbn. lia. Qed.
Lemma stamped_one : stamped [AStamp].
Proof. intros [|[|j]]; cbn; lia. Qed.
Lemma stamped_pair v l : stamped l -> stamped (AStamp :: AAppendObj v :: l).
Proof. intros H [|[|j]]; cbn [firstn]; cn; try lia. specialize (H j). lia. Qed.
Lemma stamped_cons a l : isO a = false -> isS a = false -> stamped l -> stamped (a :: l).
Proof. intros A B H [|j]; cbn [firstn]; cn; rewrite ?A, ?B; try lia. specialize (H j). lia. Qed.
Lemma stamped_loss every it v l : stamped l -> stamped (loss_acts every it v ++ l).
Proof. intros H. unfold loss_acts. destruct (_ && _); cbn [app]; [|exact H]. repeat (apply stamped_cons; [reflexivity|reflexivity|]). exact H. Qed.
Lemma sg_stamped every its k : forall it, stamped (sg_prog every its k it).
Proof.
  induction k as [|k IH]; intros it; cbn [sg_prog]; [apply stamped_nil|].
  destruct (si_break (its it)); [apply stamped_nil|]. cbn [app]. apply stamped_pair. apply stamped_loss.
  apply stamped_cons; auto.
Qed.
Lemma lsg_stamped every its k : forall it, stamped (lsg_prog every its k it).
Proof.
  induction k as [|k IH]; intros it; cbn [lsg_prog]; [apply stamped_nil|].
  destruct (si_break (its it)); [apply stamped_one|]. apply stamped_pair. apply stamped_loss.
  apply stamped_cons; auto.
Qed.
(** the subgradient learners, interrupted or not *)
Lemma sg_aligned_cut every max warm its v cut k b r extra more :
  b_cached b = None -> b_primal b = None -> (warm = true -> curves_aligned extra b) -> (warm = false -> extra = 0%nat) ->
  cnt isS (until cut (sg_prog every its max 0)) = (cnt isO (until cut (sg_prog every its max 0)) + more)%nat ->
  sg_curves now lg every max warm its v cut k b = Ok r -> curves_aligned (extra + more) (r_book r).
Proof.
  intros K P W Z A H. unfold sg_curves in H. apply bind_inv in H as (r0 & E0 & H). apply fit_inv in H.
  set (l := until cut (sg_prog every its max 0) ++ _) in H.
  assert (CS : cnt isS l = (cnt isO l + more)%nat) by (unfold l; cn; lia). clearbody l.
  destruct warm.
  - destruct (W eq_refl) as (ts & o & T & O & L & _). rewrite T in E0. injection E0 as <-.
    eapply acts_aligned; [exact H|reflexivity|exact O|unfold sg_rewind; rewrite map_length; exact L|exact CS| |exact K].
    cbn. rewrite P. intros ? E; discriminate E.
  - rewrite (Z eq_refl). injection E0 as <-. eapply acts_aligned; [exact H|reflexivity|reflexivity|reflexivity|exact CS| |exact K].
    cbn. rewrite P. intros ? E; discriminate E.
Qed.
Lemma sg_aligned every max warm its v k b r extra :
  b_cached b = None -> b_primal b = None -> (warm = true -> curves_aligned extra b) -> (warm = false -> extra = 0%nat) ->
  sg_curves now lg every max warm its v None k b = Ok r -> curves_aligned extra (r_book r).
Proof.
  intros K P W Z H. destruct (sg_prog_cnt every its max 0) as (n & A & B & _). rewrite <- (Nat.add_0_r extra).
  eapply sg_aligned_cut; eauto. cbn [until]. lia.
Qed.
Lemma sg_interrupted every max warm its v cut k b r extra :
  b_cached b = None -> b_primal b = None -> (warm = true -> curves_aligned extra b) -> (warm = false -> extra = 0%nat) ->
  sg_curves now lg every max warm its v cut k b = Ok r ->
  curves_aligned extra (r_book r) \/ curves_aligned (extra + 1) (r_book r).
Proof.
  intros K P W Z H. pose proof (until_stamped cut _ (sg_stamped every its max 0)) as C.
  destruct (Nat.eq_dec (cnt isS (until cut (sg_prog every its max 0))) (cnt isO (until cut (sg_prog every its max 0)))) as [E|E].
  - left. rewrite <- (Nat.add_0_r extra). eapply sg_aligned_cut; eauto. lia.
  - right. eapply sg_aligned_cut; eauto. lia.
Qed.
Lemma lsg_aligned_cut every max warm its v cut k b r extra more :
  b_cached b = None -> b_primal b = None -> (warm = true -> curves_aligned extra b) -> (warm = false -> extra = 0%nat) ->
  cnt isS (until cut (lsg_prog every its max 0)) = (cnt isO (until cut (lsg_prog every its max 0)) + more)%nat ->
  lsg_curves now lg every max warm its v cut k b = Ok r -> curves_aligned (extra + more) (r_book r).
Proof.
  intros K P W Z A H. unfold lsg_curves in H. apply bind_inv in H as (r0 & E0 & H). apply fit_inv in H.
  set (l := until cut (lsg_prog every its max 0) ++ _) in H.
  assert (CS : cnt isS l = (cnt isO l + more)%nat) by (unfold l; cn; lia). clearbody l.
  destruct warm.
  - destruct (W eq_refl) as (ts & o & T & O & L & _). rewrite T in E0. apply bind_inv in E0 as (ts' & E1 & E0). injection E0 as <-.
    unfold lsg_rewind in E1. apply bind_inv in E1 as (z & _ & E1). injection E1 as <-.
    eapply acts_aligned; [exact H|reflexivity|exact O| |exact CS| |exact K].
    + destruct ts; cbn in L |- *; lia.
    + cbn. rewrite P. intros ? E; discriminate E.
  - rewrite (Z eq_refl). injection E0 as <-. eapply acts_aligned; [exact H|reflexivity|reflexivity|reflexivity|exact CS| |exact K].
    cbn. rewrite P. intros ? E; discriminate E.
Qed.
Lemma lsg_interrupted every max warm its v cut k b r extra :
  b_cached b = None -> b_primal b = None -> (warm = true -> curves_aligned extra b) -> (warm = false -> extra = 0%nat) ->
  lsg_curves now lg every max warm its v cut k b = Ok r ->
  curves_aligned extra (r_book r) \/ curves_aligned (extra + 1) (r_book r).
Proof.
  intros K P W Z H. pose proof (until_stamped cut _ (lsg_stamped every its max 0)) as C.
  destruct (Nat.eq_dec (cnt isS (until cut (lsg_prog every its max 0))) (cnt isO (until cut (lsg_prog every its max 0)))) as [E|E].
  - left. rewrite <- (Nat.add_0_r extra). eapply lsg_aligned_cut; eauto. lia.
  - right. eapply lsg_aligned_cut; eauto. lia.
Qed.
(** without an early stop the latent learner has no extra stamp *)
Lemma lsg_aligned every max warm its v k b r extra :
  b_cached b = None -> b_primal b = None -> (warm = true -> curves_aligned extra b) -> (warm = false -> extra = 0%nat) ->
  (forall i, si_break (its i) = false) ->
  lsg_curves now lg every max warm its v None k b = Ok r -> curves_aligned extra (r_book r).
Proof.
  intros K P W Z NB H. destruct (lsg_prog_cnt every its max 0) as (n & m & A & B & _ & _ & _ & _ & G). specialize (G NB).
  rewrite <- (Nat.add_0_r extra). eapply lsg_aligned_cut; eauto. cbn [until]. lia.
Qed.

(** interrupts while the separation oracle or the QP is running *)
Ltac lens := rewrite ?app_length; cbn [length].
Lemma split_at {A} (a b : list A) j x : nth_error (a ++ b) j = Some x ->
  (exists i, j = i /\ nth_error a i = Some x /\ (i < length a)%nat /\ firstn j (a ++ b) = firstn i a) \/
  (exists i, j = (length a + i)%nat /\ nth_error b i = Some x /\ firstn j (a ++ b) = a ++ firstn i b).
Proof.
  intros H. destruct (Nat.lt_ge_cases j (length a)) as [L|L].
  - left. exists j. rewrite nth_error_app1 in H by exact L. repeat split; auto. rewrite firstn_app.
    replace (j - length a)%nat with 0%nat by lia. rewrite firstn_O, app_nil_r. reflexivity.
  - right. exists (j - length a)%nat. rewrite nth_error_app2 in H by exact L. repeat split; auto; [lia|].
    rewrite firstn_app, firstn_all2 by exact L. reflexivity.
Qed.
Lemma loss_acts_not every it v i a : nth_error (loss_acts every it v) i = Some a -> a = ALossInit \/ a = ALoss v.
Proof. unfold loss_acts. destruct (_ && _); [|destruct i; discriminate]. destruct i as [|[|i]]; cbn; [| |destruct i; discriminate]; intros E; injection E as <-; auto. Qed.
Lemma os_stamp_cut every its k : forall it sw j, nth_error (os_prog every its k it sw) j = Some AStamp ->
  exists n, cnt isS (firstn j (os_prog every its k it sw)) = n /\ cnt isO (firstn j (os_prog every its k it sw)) = n /\
  cnt isP (firstn j (os_prog every its k it sw)) = n /\ cnt isC (firstn j (os_prog every its k it sw)) = n.
Proof.
  induction k as [|k IH]; intros it sw j H; cbn [os_prog] in *; [destruct j; discriminate H|].
  destruct (its it) as [|l p c o].
  - destruct sw; [apply IH; exact H|destruct j; discriminate H].
  - destruct j as [|j]; [exists 0%nat; repeat split|]. cbn [nth_error firstn] in *.
    destruct (split_at _ _ _ _ H) as [(i & -> & E & _)|(i & -> & E & F)].
    + apply loss_acts_not in E as [E|E]; discriminate E.
    + rewrite F. clear F H. do 5 (destruct i as [|i]; [discriminate E|]). cbn [app nth_error firstn] in *.
      destruct (IH (S it) sw i E) as (n & A & B & C & D). exists (S n). cn. la. lia.
Qed.
Lemma fw_primal_cut batch check its max j v : nth_error (fw_prog batch check its max) j = Some (APrimal v) ->
  exists n, cnt isS (firstn j (fw_prog batch check its max)) = n /\ cnt isO (firstn j (fw_prog batch check its max)) = n /\
  cnt isP (firstn j (fw_prog batch check its max)) = n.
Proof.
  unfold fw_prog. destruct batch.
  - generalize 0%nat. revert j. induction max as [|k IH]; intros j it H; cbn [fwb_prog fw_checked app] in *; [destruct j; discriminate H|].
    destruct j as [|j]; [exists 0%nat; repeat split|]. do 3 (destruct j as [|j]; [discriminate H|]). cbn [nth_error firstn] in *.
    destruct (fi_stop (its it)); [destruct j; discriminate H|]. destruct (IH _ _ H) as (n & A & B & C). exists (S n). cn. lia.
  - generalize 0%nat. revert j. induction max as [|k IH]; intros j it H; cbn [fwbc_prog fw_checked app] in *; [destruct j; discriminate H|].
    destruct (negb (check =? 0)%nat && (it mod check =? 0)%nat); unfold fw_checked in *; cbn [app] in *.
    + destruct j as [|j]; [exists 0%nat; repeat split|]. do 3 (destruct j as [|j]; [discriminate H|]). cbn [nth_error firstn] in *.
      destruct (check =? 0)%nat; [destruct j as [|[|j]]; discriminate H|].
      destruct (fi_stop (its it)); [destruct j; discriminate H|]. destruct (IH _ _ H) as (n & A & B & C). exists (S n). cn. lia.
    + destruct j as [|j]; [discriminate H|]. cbn [nth_error firstn] in *.
      destruct (check =? 0)%nat; [destruct j as [|[|j]]; discriminate H|].
      destruct (fi_stop (its it)); [destruct j; discriminate H|]. destruct (IH _ _ H) as (n & A & B & C). exists n. cn. lia.
Qed.
Definition searching (a : act) : bool := match a with ABatch | AObjective _ | AAppendLocal => true | _ => false end.
Lemma batch_firstn l : forall i f, (forall a, f a = true -> a <> ABatch /\ forall v, a <> AObjective v) -> cnt f (firstn i (batch_acts l)) = 0%nat.
Proof.
  intros i f Hf. pose proof (batch_acts_cnt f l Hf) as Z. rewrite <- (firstn_skipn i (batch_acts l)), cnt_app in Z. lia.
Qed.
Ltac bf := rewrite ?(batch_firstn _ _ isS), ?(batch_firstn _ _ isO), ?(batch_firstn _ _ isP)
  by (intros []; cbn; intros; try discriminate; (split; [|intros]; discriminate)).
Lemma ns_search_cut every its k : forall it sw j a, nth_error (ns_prog every its k it sw) j = Some a -> searching a = true ->
  exists n, cnt isS (firstn j (ns_prog every its k it sw)) = S n /\ cnt isO (firstn j (ns_prog every its k it sw)) = n /\
  cnt isP (firstn j (ns_prog every its k it sw)) = n.
Proof.
  induction k as [|k IH]; intros it sw j a H Sa; cbn [ns_prog] in *; [destruct j; discriminate H|].
  destruct (split_at _ _ _ _ H) as [(i & -> & E & Li & F)|(i & -> & E & F)].
  - rewrite F. clear F H. unfold ns_acts in *. fold (batch_acts (ni_batches (its it))) in *.
    destruct i as [|i]; [injection E as <-; discriminate Sa|]. cbn [nth_error firstn] in *.
    exists 0%nat. destruct (split_at _ _ _ _ E) as [(i' & -> & E' & _ & F)|(i' & -> & E' & F)].
    + rewrite F. cn. bf. auto.
    + rewrite F. destruct i' as [|i']; [cbn [firstn]; cn; ba; auto|]. exfalso. cbn [app nth_error] in E'.
      destruct (split_at _ _ _ _ E') as [(u & -> & E2 & _)|(u & -> & E2 & _)].
      * apply loss_acts_not in E2 as [->| ->]; discriminate Sa.
      * destruct u as [|[|u]]; try discriminate E2. injection E2 as <-. discriminate Sa.
  - rewrite F. destruct (ns_acts_cnt every it (its it)) as (A & B & C & _).
    destruct (ni_stop (its it)).
    + destruct sw; [|destruct i; discriminate E]. destruct (IH _ _ _ _ E Sa) as (n & A' & B' & C'). exists (S n). rewrite !cnt_app. lia.
    + destruct i as [|i]; [injection E as <-; discriminate Sa|]. cbn [nth_error firstn] in *.
      destruct (IH _ _ _ _ E Sa) as (n & A' & B' & C'). exists (S n). rewrite !cnt_app, !cnt_cons. cbn [isS isO isP]. lia.
Qed.
End Fits.
