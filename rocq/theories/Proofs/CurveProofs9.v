(** Order of the plot, losses of a second fit, examples. *)
From Coq Require Import Sorted Lia.
From Verif Require Import Base.QcBase Base.Sums Model.Curves Model.PlotLearning Spec.CurveSpec Proofs.Arrays Proofs.CurveProofs
  Proofs.CurveProofs2 Proofs.CurveProofs3 Proofs.CurveProofs4 Proofs.CurveProofs5 Proofs.CurveProofs8.

Lemma sorted_nth (l : list Qc) : StronglySorted Qcle l -> forall i j, (i <= j < length l)%nat -> nth i l 0 <= nth j l 0.
Proof.
  induction 1 as [|a l S IH F]; intros i j H; cbn in H; [lia|].
  destruct i as [|i], j as [|j]; cbn [nth].
  - apply Qcle_refl.
  - rewrite Forall_forall in F. apply F, nth_In. lia.
  - lia.
  - apply IH. lia.
Qed.
Lemma minutes_ordered now k b ts n i j :
  stamps_ordered now k b -> b_times b = Some ts -> length ts = S n -> (2 <= n)%nat -> (i <= j < n)%nat ->
  0 <= nth i (minutes ts n) 0 <= nth j (minutes ts n) 0.
Proof.
  intros (t0 & us & T & _ & So & F) T' L N H. rewrite T in T'. injection T' as <-. cbn in L. injection L as L.
  rewrite !minutes_nth by lia.
  assert (X : forall m, (1 <= m <= n)%nat -> nth m (t0 :: us) 0 = nth (m - 1) us 0).
  { intros m Hm. destruct m; [lia|]. cbn [nth]. rewrite Nat.sub_succ, Nat.sub_0_r. reflexivity. }
  rewrite !X by lia. rewrite Forall_forall in F.
  set (u := nth (Nat.min (i + 2) n - 1) us 0). set (v := nth (Nat.min (j + 2) n - 1) us 0).
  assert (U : 0 <= u) by (apply F, nth_In; lia).
  assert (V : u <= v) by (apply sorted_nth; [exact So|lia]).
  assert (I : 0 <= / ofN 60) by (apply Qclt_le_weak, Qcinv_pos, ofN_pos; lia).
  unfold Qcdiv. set (z := / ofN 60) in *. clearbody z u v. split; [apply Qcmult_nonneg; assumption|apply Qcmult_le_compat_r; assumption].
Qed.

Lemma fit_loss now lg cut r0 body final r ls : fit_acts now lg cut r0 body final = Ok r -> b_loss (r_book r0) = Some ls ->
  exists e, b_loss (r_book r) = Some (ls ++ e).
Proof.
  intros H L. apply fit_inv in H. pose proof (acts_grows now lg _ _ _ H) as (_ & _ & _ & _ & G). rewrite L in G. exact G.
Qed.
Lemma refit_losses now lg every max sw its_n its_o its_s batch check its_f p cut k b r ls :
  b_loss b = Some ls ->
  (ns_curves now lg every max sw None its_n p cut k b = Ok r \/ os_curves now lg every max sw false its_o p cut k b = Ok r \/
   fw_curves now lg batch check max its_f p cut k b = Ok r \/
   sg_curves now lg every max false its_s p cut k b = Ok r \/ lsg_curves now lg every max false its_s p cut k b = Ok r) ->
  exists e, b_loss (r_book r) = Some (ls ++ e).
Proof. intros L [H|[H|[H|[H|H]]]]; exact (fit_loss _ _ _ _ _ _ _ _ H L). Qed.

(** ** examples: one reading per minute *)
Definition ex30_now (j : nat) : Qc := ofN 60 * ofN j.
Definition ex30_ns (i : nat) : ns_iter := NSIter [Some (ofN i)] (ofN (9 - i)) (ofN (S i)) (i =? 4)%nat.
Definition ex30_os (i : nat) : os_iter := if (i =? 4)%nat then OINone else OIFound 1 (ofN (9 - i)) (i =? 1)%nat (ofN (S i)).
Definition ex30_fw (i : nat) : fw_iter := FWIter (ofN (9 - i)) (ofN i) (i =? 2)%nat.
Definition ex30_sg (i : nat) : sg_iter := SGIter (i =? 3)%nat (ofN (9 - i)) (ofN i).
Lemma ex30_clock : clock ex30_now.
Proof.
  intros i j H. unfold ex30_now. replace j with (i + (j - i))%nat by lia. rewrite ofN_plus.
  pose proof (ofN_nonneg (j - i)) as A. pose proof (ofN_nonneg 60) as B. pose proof (Qcmult_nonneg _ _ B A) as C.
  set (m := ofN 60) in *. set (x := ofN (j - i)) in *. set (y := ofN i). clearbody m x y.
  replace (m * (y + x)) with (m * y + m * x) by ring. set (q := m * x) in *. set (t := m * y). clearbody q t. clear A B. qclra.
Qed.
Definition is_ok {A} (x : res A) : bool := match x with Ok _ => true | Err _ => false end.
Lemma ok_of {A} (x : res A) : is_ok x = true -> exists a, x = Ok a.
Proof. destruct x; [eauto|discriminate]. Qed.
Definition err_of {A} (x : res A) : option exn := match x with Ok _ => None | Err e => Some e end.
Lemma err_of_eq {A} (x : res A) e : err_of x = Some e -> x = Err e.
Proof. destruct x; [discriminate|]. cbn. intros H. injection H as ->. reflexivity. Qed.
Definition late_check (x : res run) : bool :=
  match x with
  | Ok r => match nth_error (r_log r) 0 with
            | Some (Some 0%nat, Book (Some t) (Some o) _ _ _) => (length t =? 2)%nat && (length o =? 1)%nat
            | _ => false end &&
            match b_times (r_book r) with Some ts => Qcltb (nth 1 ts 0) (nth 2 ts 0) | None => false end
  | _ => false end.
Lemma fw_late_gen now its p k b0 :
  late_check (fw_curves now true true 1 5 its p None k b0) = true -> b_cached b0 = None ->
  exists r b ts0 ts o0 o d,
  fw_curves now true true 1 5 its p None k b0 = Ok r /\
  nth_error (r_log r) 0 = Some (Some 0%nat, b) /\ b_times b = Some ts0 /\ length ts0 = 2%nat /\ b_obj b = Some o0 /\ length o0 = 1%nat /\
  b_times (r_book r) = Some ts /\ b_obj (r_book r) = Some o /\
  plot_learning true 0 (r_book r) = Ok d /\ nth 0 (fst (d_dual d)) 0 = nth 2 ts 0 / ofN 60 /\ nth 1 ts 0 < nth 2 ts 0.
Proof.
  intros V C. destruct (fw_curves now true true 1 5 its p None k b0) as [r|] eqn:Hr; [|discriminate]. exists r.
  unfold late_check in V. apply andb_prop in V as [V W].
  assert (L : exists b ts0 o0, nth_error (r_log r) 0 = Some (Some 0%nat, b) /\ b_times b = Some ts0 /\ length ts0 = 2%nat /\ b_obj b = Some o0 /\ length o0 = 1%nat).
  { destruct (nth_error (r_log r) 0) as [[[[|]|] [[t|] [o|] bp bc bl]]|]; try discriminate V.
    apply andb_prop in V as [V1 V2]. apply Nat.eqb_eq in V1, V2. do 3 eexists. repeat split; assumption. }
  destruct L as (b & ts0 & o0 & L1 & L2 & L3 & L4 & L5).
  destruct (fw_aligned now true true 1 5 its p k b0 r C Hr) as (A & o & O & Lo).
  pose proof A as (ts & o' & T & O' & _). rewrite O in O'. injection O' as <-.
  destruct (draws_time 0 0 _ _ _ A T O Lo) as (d & D & (o' & O' & _ & _ & Du & _)). rewrite O in O'. injection O' as <-.
  exists b, ts0, ts, o0, o, d. split; [reflexivity|]. do 8 (split; [assumption|]). split.
  - rewrite Du. cbn [fst]. rewrite minutes_nth by lia. unfold Qcdiv. do 2 f_equal. lia.
  - rewrite T in W. apply Qcltb_lt. exact W.
Qed.
Lemma fw_late_check : late_check (fw_curves ex30_now true true 1 5 ex30_fw (ofN 7) None 0 new_book) = true.
Proof. vm_compute. reflexivity. Qed.
Lemma broken (x : res run) every : (match x with Ok r => err_of (plot_learning true every (r_book r)) | Err _ => None end) = Some ValueError ->
  exists r, x = Ok r /\ plot_learning true every (r_book r) = Err ValueError.
Proof. destruct x as [r|]; [|discriminate]. intros H. exists r. split; [reflexivity|apply err_of_eq; exact H]. Qed.
Lemma ns_broken : exists its j r,
  nth_error (ns_prog 1 its 3 0 false) j = Some ALossInit /\
  ns_curves ex30_now false 1 3 false None its 1 (Some j) 0 new_book = Ok r /\ plot_learning true 1 (r_book r) = Err ValueError.
Proof.
  exists ex30_ns, 4%nat. destruct (broken (ns_curves ex30_now false 1 3 false None ex30_ns 1 (Some 4%nat) 0 new_book) 1) as (r & A & B); [vm_compute; reflexivity|].
  exists r. split; [reflexivity|]. split; [exact A|exact B].
Qed.
Lemma os_broken : exists its j v r,
  nth_error (os_prog 0 its 3 0 false) j = Some (AObjective v) /\
  os_curves ex30_now false 0 3 false false its 1 (Some j) 0 new_book = Ok r /\ plot_learning true 0 (r_book r) = Err ValueError.
Proof.
  exists ex30_os, 9%nat. destruct (broken (os_curves ex30_now false 0 3 false false ex30_os 1 (Some 9%nat) 0 new_book) 0) as (r & A & B); [vm_compute; reflexivity|].
  eexists. exists r. split; [reflexivity|]. split; [exact A|exact B].
Qed.
Lemma fw_broken : exists its j v r,
  nth_error (fwb_prog its 3 0) j = Some (AAppendObj v) /\
  fw_curves ex30_now false true 1 3 its 1 (Some j) 0 new_book = Ok r /\ plot_learning true 0 (r_book r) = Err ValueError.
Proof.
  exists ex30_fw, 5%nat. destruct (broken (fw_curves ex30_now false true 1 3 ex30_fw 1 (Some 5%nat) 0 new_book) 0) as (r & A & B); [vm_compute; reflexivity|].
  eexists. exists r. split; [reflexivity|]. split; [exact A|exact B].
Qed.
