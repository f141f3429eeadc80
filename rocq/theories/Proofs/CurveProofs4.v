(** The order of the time stamps, the number of training losses, and the drawing. *)
From Coq Require Import Sorted Lia.
From Verif Require Import Base.QcBase Base.Sums Model.Curves Model.PlotLearning Spec.CurveSpec Proofs.Arrays
  Proofs.CurveProofs Proofs.CurveProofs2 Proofs.CurveProofs3.

Section Order.
Variable now : nat -> Qc.
Variable lg : bool.
Hypothesis mono : clock now.

Lemma cold_ordered k b : b_times b = Some [now k] -> stamps_ordered now (S k) b.
Proof.
  intros E. exists (now k), []. split; [exact E|]. split; [apply mono; lia|]. split; constructor.
Qed.
Lemma fit_ordered cut r0 body final r : fit_acts now lg cut r0 body final = Ok r ->
  stamps_ordered now (r_clock r0) (r_book r0) -> stamps_ordered now (r_clock r) (r_book r).
Proof. intros H. apply fit_inv in H. eapply acts_ordered; eauto. Qed.
Lemma ns_ordered every max sw warm its p cut k b r :
  ns_curves now lg every max sw warm its p cut k b = Ok r ->
  (warm <> None -> stamps_ordered now k b) -> stamps_ordered now (r_clock r) (r_book r).
Proof.
  intros H W. eapply fit_ordered; [exact H|]. destruct warm; [apply W; discriminate|]. apply cold_ordered. reflexivity.
Qed.
Lemma os_ordered every max sw warm its p cut k b r :
  os_curves now lg every max sw warm its p cut k b = Ok r ->
  (warm = true -> stamps_ordered now k b) -> stamps_ordered now (r_clock r) (r_book r).
Proof.
  intros H W. eapply fit_ordered; [exact H|]. destruct warm; [apply W; reflexivity|]. apply cold_ordered. reflexivity.
Qed.
Lemma fw_ordered batch check max its p cut k b r :
  fw_curves now lg batch check max its p cut k b = Ok r -> stamps_ordered now (r_clock r) (r_book r).
Proof. intros H. eapply fit_ordered; [exact H|]. apply cold_ordered. reflexivity. Qed.
Lemma sg_ordered every max its v cut k b r :
  sg_curves now lg every max false its v cut k b = Ok r -> stamps_ordered now (r_clock r) (r_book r).
Proof. intros H. eapply fit_ordered; [exact H|]. apply cold_ordered. reflexivity. Qed.
Lemma last_any {A} (l : list A) : forall x d d', last (x :: l) d = last (x :: l) d'.
Proof. induction l as [|a l IH]; intros x d d'; [reflexivity|]. exact (IH a d d'). Qed.
Lemma last_entry_last {A} (l : list A) x d : last_entry l = Ok x -> x = last l d.
Proof.
  destruct l as [|a l]; cbn [last_entry]; [discriminate|]. intros E. injection E as <-.
  destruct l as [|b l]; [reflexivity|]. exact (last_any l b a d).
Qed.
Lemma last_ge (l : list Qc) : StronglySorted Qcle l -> forall x, In x l -> x <= last l 0.
Proof.
  induction l as [|a l IH]; [intros _ x []|]. intros S x Hx. inversion S as [|? ? S' F]; subst.
  destruct l as [|b l]; [destruct Hx as [<-|[]]; apply Qcle_refl|].
  change (last (a :: b :: l) 0) with (last (b :: l) 0). destruct Hx as [<-|Hx]; [|apply IH; auto].
  rewrite Forall_forall in F. apply F. destruct (exists_last (l := b :: l)) as (u & z & E); [discriminate|]. rewrite E, last_last. apply in_or_app. right; left; reflexivity.
Qed.
Lemma lsg_ordered every max warm its v cut k b r :
  lsg_curves now lg every max warm its v cut k b = Ok r ->
  (warm = true -> stamps_ordered now k b /\ forall ts, b_times b = Some ts -> (2 <= length ts)%nat) ->
  stamps_ordered now (r_clock r) (r_book r).
Proof.
  intros H W. unfold lsg_curves in H. apply bind_inv in H as (r0 & E0 & H). eapply fit_ordered; [exact H|]. clear H.
  destruct warm; [|injection E0 as <-; apply cold_ordered; reflexivity].
  destruct (W eq_refl) as ((t0 & ts & T & L0 & Srt & F) & Len). rewrite T in E0.
  specialize (Len _ T). apply bind_inv in E0 as (ts' & E1 & E0). injection E0 as <-. cbn.
  unfold lsg_rewind in E1. apply bind_inv in E1 as (z & Ez & E1). injection E1 as <-. cbn [tl].
  apply (last_entry_last _ _ 0) in Ez. destruct ts as [|t1 ts]; [cbn in Len; lia|].
  change (last (t0 :: t1 :: ts) 0) with (last (t1 :: ts) 0) in Ez. subst z.
  assert (M : now k <= now (S k)) by (apply mono; lia).
  assert (Z : 0 <= last (t1 :: ts) 0).
  { eapply Qcle_trans; [|apply last_ge; [exact Srt|left; reflexivity]]. inversion F; tauto. }
  exists (now k - last (t1 :: ts) 0), (t1 :: ts). split; [reflexivity|].
  split; [clear - M Z; set (u := last _ _) in *; clearbody u; qclra|]. split; [exact Srt|].
  apply Forall_forall. intros x Hx. split; [rewrite Forall_forall in F; apply F; exact Hx|].
  pose proof (last_ge _ Srt x Hx) as G. clear - M G. set (u := last _ _) in *; clearbody u. qclra.
Qed.
(** SubgradientSSVM: stamps after a warm start *)
Lemma act1_stamps_from a r r' t0 ts : act1 now lg a r = Ok r' -> b_times (r_book r) = Some (t0 :: ts) ->
  exists e, b_times (r_book r') = Some (t0 :: ts ++ e) /\ Forall (fun t => now (r_clock r) - t0 <= t) e /\ (r_clock r <= r_clock r')%nat.
Proof.
  intros H E. rewrite (act1_stamp _ _ _ _ _ _ _ H E), (act1_clock _ _ _ _ _ H). eexists. split; [reflexivity|]. split; [|lia].
  destruct (isS a); constructor; [apply Qcle_refl|constructor].
Qed.
Lemma acts_stamps_from l : forall r r' t0 ts, acts now lg l r = Ok r' -> b_times (r_book r) = Some (t0 :: ts) ->
  exists e, b_times (r_book r') = Some (t0 :: ts ++ e) /\ Forall (fun t => now (r_clock r) - t0 <= t) e /\ length e = cnt isS l.
Proof.
  induction l as [|a l IH]; intros r r' t0 ts H E.
  - injection H as <-. exists []. rewrite app_nil_r. repeat split; auto.
  - cbn in H. apply bind_inv in H as (r1 & H1 & H2). destruct (act1_stamps_from _ _ _ _ _ H1 E) as (e & E1 & F1 & C1).
    destruct (IH _ _ _ _ H2 E1) as (e2 & E2 & F2 & L2). exists (e ++ e2). rewrite app_assoc. split; [exact E2|]. split.
    + apply Forall_app. split; [exact F1|]. eapply Forall_impl; [|exact F2]. cbn. intros t Ht.
      pose proof (mono _ _ C1) as M. clear - M Ht. qclra.
    + rewrite app_length, cnt_cons, L2. destruct (act1_times _ _ _ _ _ _ H1 E) as (e' & E' & L').
      rewrite E' in E1. injection E1 as E1. apply app_inv_head in E1. subst. lia.
Qed.
Lemma sg_warm_stamps every max its v cut k b t0 ts r :
  sg_curves now lg every max true its v cut k b = Ok r -> b_times b = Some (t0 :: ts) ->
  exists e, b_times (r_book r) = Some ((t0 - now k) :: map (fun t => t - now k) ts ++ e) /\ e <> [] /\
    Forall (fun t => now k + (now k - t0) <= t) e.
Proof.
  intros H E. unfold sg_curves in H. rewrite E in H. cbn [bind] in H. apply fit_inv in H.
  destruct (acts_stamps_from _ _ _ (t0 - now k) (map (fun t => t - now k) ts) H eq_refl) as (e & A & B & C).
  exists e. split; [exact A|]. split.
  - intros ->. revert C. cn. cbn. lia.
  - eapply Forall_impl; [|exact B]. cbn. intros t Ht. assert (M : now k <= now (S k)) by (apply mono; lia). clear - M Ht. qclra.
Qed.
Lemma sg_warm_disorder every max its v cut k b t0 ts r :
  sg_curves now lg every max true its v cut k b = Ok r -> b_times b = Some (t0 :: ts) ->
  (exists t, In t ts /\ t < now k) -> forall k', ~ stamps_ordered now k' (r_book r).
Proof.
  intros H E (t & Ht & Lt) k' (t0' & ts' & T & _ & _ & F). destruct (sg_warm_stamps _ _ _ _ _ _ _ _ _ _ H E) as (e & E' & _).
  rewrite E' in T. injection T as _ <-. apply Forall_app in F as [F _]. rewrite Forall_forall in F.
  destruct (F (t - now k)) as [P _]; [apply in_map_iff; exists t; auto|]. clear - P Lt. qclra.
Qed.
End Order.

(** ** number of losses *)
Lemma dues_due every n : every <> 0%nat -> dues every 0 n = length (due every n).
Proof.
  intros H. unfold dues, due. f_equal. apply filter_ext. intros i. unfold dueb.
  destruct (every =? 0)%nat eqn:E; [apply Nat.eqb_eq in E; congruence|reflexivity].
Qed.
Lemma due_pos every n : every <> 0%nat -> n <> 0%nat -> length (due every n) <> 0%nat.
Proof. intros H N. unfold due. destruct n; [congruence|]. cbn [seq filter]. rewrite Nat.mod_0_l by exact H. cbn. lia. Qed.
Lemma due_S every n : every <> 0%nat -> length (due every (S n)) = (length (due every n) + if (n mod every =? 0)%nat then 1 else 0)%nat.
Proof.
  intros H. unfold due. rewrite seq_S, filter_app, app_length. f_equal. cbn. destruct (_ =? _)%nat; reflexivity.
Qed.

Section Losses.
Variable now : nat -> Qc.
Variable lg : bool.
Lemma loss_length l r0 r n m : acts now lg l r0 = Ok r -> b_loss (r_book r0) = None -> cnt isL l = m -> cnt isI l = m ->
  b_obj (r_book r0) = Some [] -> cnt isO l = S n ->
  exists o, b_obj (r_book r) = Some o /\ length o = S n /\
    match b_loss (r_book r) with None => m = 0%nat | Some ls => length ls = m /\ m <> 0%nat end.
Proof.
  intros H B L I O C. destruct (acts_obj_length _ _ _ _ _ _ H O) as (o & E & Lo). exists o. split; [exact E|]. split; [cbn in Lo; lia|].
  destruct (acts_loss _ _ _ _ _ H) as (e & El & Le). unfold losses in El. rewrite B in El. cbn in El.
  destruct (Nat.eq_dec m 0) as [Z|Z].
  - assert (NI : cnt isI l = 0%nat) by lia. rewrite (acts_loss_none _ _ _ _ _ H NI B). exact Z.
  - assert (NI : cnt isI l <> 0%nat) by lia. pose proof (acts_loss_some _ _ _ _ _ H (or_introl NI)) as S. destruct (b_loss (r_book r)); [|congruence]. subst. split; [lia|exact Z].
Qed.
Lemma loss_due every l r0 r n : every <> 0%nat -> acts now lg l r0 = Ok r -> b_loss (r_book r0) = None -> cnt isL l = dues every 0 n -> cnt isI l = dues every 0 n ->
  b_obj (r_book r0) = Some [] -> cnt isO l = S n -> losses_due every (r_book r).
Proof.
  intros N H B L I O C. destruct (loss_length _ _ _ _ _ H B L I O C) as (o & E & Lo & M). exists o. split; [exact E|].
  rewrite (dues_due _ _ N) in M. replace (length o - 1)%nat with n by lia.
  destruct (b_loss (r_book r)); [tauto|]. destruct n; [exact Lo|]. exfalso. apply (due_pos every (S n)); auto.
Qed.
Lemma ns_losses every max sw its p k b r : every <> 0%nat -> b_loss b = None ->
  ns_curves now lg every max sw None its p None k b = Ok r -> losses_due every (r_book r).
Proof.
  intros N B H. apply fit_inv in H. cbn [until] in H. destruct (ns_prog_cnt every its max 0 sw) as (n & A1 & A2 & A3 & A4 & A5 & A6).
  eapply (loss_due every _ _ _ n N H B); [| |reflexivity|]; cn; lia.
Qed.
Lemma os_losses every max its p k b r : every <> 0%nat -> b_loss b = None ->
  os_curves now lg every max false false its p None k b = Ok r -> losses_due every (r_book r).
Proof.
  intros N B H. apply fit_inv in H. cbn [until] in H. destruct (os_prog_cnt every its max 0 false) as (n & m & A1 & A2 & A3 & A4 & A5 & A6 & A7).
  rewrite (A7 eq_refl) in *. eapply (loss_due every _ _ _ n N H B); [| |reflexivity|]; cn; lia.
Qed.
Lemma sg_losses every max its v k b r : every <> 0%nat -> b_loss b = None ->
  sg_curves now lg every max false its v None k b = Ok r -> losses_due every (r_book r).
Proof.
  intros N B H. cbn [sg_curves bind] in H. apply fit_inv in H. cbn [until] in H. destruct (sg_prog_cnt every its max 0) as (n & A1 & A2 & A3 & A4 & A5 & A6).
  eapply (loss_due every _ _ _ n N H B); [| |reflexivity|]; cn; lia.
Qed.
Lemma lsg_losses every max its v k b r : every <> 0%nat -> b_loss b = None ->
  lsg_curves now lg every max false its v None k b = Ok r -> losses_due every (r_book r).
Proof.
  intros N B H. cbn [lsg_curves bind] in H. apply fit_inv in H. cbn [until] in H. destruct (lsg_prog_cnt every its max 0) as (n & m & A1 & A2 & A3 & A4 & A5 & A6 & _).
  eapply (loss_due every _ _ _ n N H B); [| |reflexivity|]; cn; lia.
Qed.
(** Frank-Wolfe never records training losses *)
Lemma fw_no_losses batch check max its p cut k b r :
  fw_curves now lg batch check max its p cut k b = Ok r -> b_loss (r_book r) = b_loss b.
Proof.
  intros H. apply fit_inv in H. set (pr := if batch then _ else _) in H.
  assert (C : cnt isL pr = 0%nat /\ cnt isI pr = 0%nat).
  { subst pr. destruct batch; [destruct (fwb_prog_cnt its max 0) as (? & _ & _ & _ & _ & ? & ?)|destruct (fwbc_prog_cnt check its max 0) as (? & _ & _ & _ & _ & ? & ?)]; auto. }
  clearbody pr. destruct C as [C1 C2].
  assert (Z : forall j f, cnt f pr = 0%nat -> cnt f (firstn j pr) = 0%nat).
  { intros j f Hf. rewrite <- (firstn_skipn j pr), cnt_app in Hf. lia. }
  set (l := until cut pr ++ _) in H.
  assert (CL : cnt isL l = 0%nat) by (unfold l; cn; destruct cut; cbn [until]; rewrite ?Z; lia).
  assert (CI : cnt isI l = 0%nat) by (unfold l; cn; destruct cut; cbn [until]; rewrite ?Z; lia).
  destruct (acts_loss _ _ _ _ _ H) as (e & El & Le). rewrite CL in Le. destruct e; [|discriminate Le]. rewrite app_nil_r in El.
  unfold losses in El. cbn in El. destruct (b_loss b) as [q|] eqn:E.
  - match type of H with acts _ _ _ ?r0 = _ => assert (NI : b_loss (r_book r0) <> None) by (cbn; rewrite ?E; discriminate) end.
    pose proof (acts_loss_some _ _ _ _ _ H (or_intror NI)) as S.
    destruct (b_loss (r_book r)); [subst; reflexivity|congruence].
  - apply (acts_loss_none _ _ _ _ _ H CI). reflexivity.
Qed.
End Losses.

(** ** the drawing *)
Lemma combine_nth_map {A B} (d : A) (d' : B) (l : list A) : forall (m : list B), length l = length m ->
  combine l m = map (fun i => (nth i l d, nth i m d')) (seq 0 (length l)).
Proof.
  induction l as [|a l IH]; intros [|b m] E; try discriminate E; cbn; [reflexivity|].
  f_equal. rewrite (IH m) by (cbn in E; lia). rewrite <- seq_shift, map_map. reflexivity.
Qed.
Lemma combine_seq_map {A} (d : A) (l : list A) : combine (seq 0 (length l)) l = map (fun i => (i, nth i l d)) (seq 0 (length l)).
Proof.
  rewrite (combine_nth_map 0%nat d) by (rewrite seq_length; reflexivity). rewrite seq_length. apply map_ext_in. intros i Hi.
  apply in_seq in Hi. rewrite seq_nth by lia. reflexivity.
Qed.
Lemma filter_map {A B} (f : B -> bool) (g : A -> B) l : filter f (map g l) = map g (filter (fun x => f (g x)) l).
Proof. induction l as [|a l IH]; cbn; [reflexivity|]. destruct (f (g a)); cbn; rewrite IH; reflexivity. Qed.
Lemma masked_spec {A} (d : A) d' (l : list A) m : length l = length m ->
  masked l m = map (fun i => nth i l d) (filter (fun i => nth i m d') (seq 0 (length l))).
Proof.
  intros E. unfold masked. rewrite (combine_nth_map d d' l m E), filter_map, map_map. reflexivity.
Qed.
Lemma every_nth_spec n (l : list Qc) : n <> 0%nat ->
  every_nth n l = Ok (map (fun i => nth i l 0) (due n (length l))).
Proof.
  intros N. unfold every_nth, due. destruct (n =? 0)%nat eqn:E; [apply Nat.eqb_eq in E; congruence|].
  rewrite (combine_seq_map 0), filter_map, map_map. reflexivity.
Qed.
Lemma last_nth {A} (l : list A) d : last l d = nth (length l - 1) l d.
Proof.
  induction l as [|a l IH]; [reflexivity|]. destruct l as [|b l]; [reflexivity|].
  change (last (a :: b :: l) d) with (last (b :: l) d). rewrite IH. cbn [length]. replace (S (S (length l)) - 1)%nat with (S (length l)) by lia.
  replace (S (length l) - 1)%nat with (length l) by lia. reflexivity.
Qed.
Lemma last_entry_nth {A} (l : list A) d : l <> [] -> last_entry l = Ok (nth (length l - 1) l d).
Proof.
  intros H. destruct (last_entry l) as [x|e] eqn:E; [rewrite (last_entry_last _ _ d E), last_nth; reflexivity|].
  destruct l; [congruence|discriminate E].
Qed.
Lemma plot_inds_time ts n : (2 <= n)%nat -> (S n <= length ts)%nat -> plot_inds true (Some ts) n = Ok (minutes ts n).
Proof.
  intros N L. unfold plot_inds. set (sl := map _ _).
  assert (Ls : length sl = (n - 1)%nat) by (unfold sl; rewrite map_length, slice_length; lia).
  assert (Nth : forall i, (i < n - 1)%nat -> nth i sl 0 = nth (i + 2) ts 0 / ofN 60).
  { intros i Hi. unfold sl. rewrite (nth_indep _ 0 (0 / sixty)) by (fold sl; lia). rewrite (map_nth (fun t => t / sixty)).
    unfold slice. rewrite nth_firstn by lia. rewrite nth_skipn. unfold sixty. replace (2 + i)%nat with (i + 2)%nat by lia. reflexivity. }
  rewrite (last_entry_nth sl 0) by (intros E; rewrite E in Ls; cbn in Ls; lia). cbn [bind]. f_equal.
  apply (nth_ext _ _ 0 0).
  - unfold minutes. rewrite app_length, map_length, seq_length, Ls. cbn. lia.
  - intros i Hi. rewrite app_length, Ls in Hi. cbn in Hi. unfold minutes.
    rewrite nth_map_seq by lia. destruct (Nat.lt_ge_cases i (n - 1)) as [C|C].
    + rewrite app_nth1 by lia. rewrite Nth by exact C. rewrite Nat.min_l by lia. reflexivity.
    + rewrite app_nth2 by lia. replace (i - length sl)%nat with 0%nat by lia. cbn [nth]. rewrite Nth by lia.
      rewrite Nat.min_r by lia. repeat f_equal. lia.
Qed.
