(** The programs of the five learners. *)
From Coq Require Import Sorted Lia.
From Verif Require Import Base.QcBase Base.Sums Model.Curves Model.PlotLearning Spec.CurveSpec Proofs.Arrays Proofs.CurveProofs.

Lemma cnt_nil f : cnt f [] = 0%nat. Proof. reflexivity. Qed.
Ltac cn := repeat (rewrite ?cnt_app, ?cnt_cons, ?cnt_nil); cbn [isS isO isP isC isL isI].

Lemma loss_acts_other every it v f : (forall a, f a = true -> isL a = false /\ isI a = false) -> cnt f (loss_acts every it v) = 0%nat.
Proof.
  intros H. unfold loss_acts. destruct (_ && _); [|reflexivity]. cn.
  destruct (f ALossInit) eqn:A; [destruct (H _ A) as [_ B]; discriminate B|].
  destruct (f (ALoss v)) eqn:B; [destruct (H _ B) as [C _]; discriminate C|]. reflexivity.
Qed.
Ltac la := rewrite ?(loss_acts_other _ _ _ isS), ?(loss_acts_other _ _ _ isO), ?(loss_acts_other _ _ _ isP), ?(loss_acts_other _ _ _ isC)
  by (intros []; cbn; intros; try discriminate; auto).
Definition dueb (every it : nat) : bool := negb (every =? 0)%nat && (it mod every =? 0)%nat.
Lemma loss_acts_L every it v : cnt isL (loss_acts every it v) = (if dueb every it then 1 else 0)%nat.
Proof. unfold loss_acts, dueb. destruct (_ && _); reflexivity. Qed.
Lemma loss_acts_I every it v : cnt isI (loss_acts every it v) = (if dueb every it then 1 else 0)%nat.
Proof. unfold loss_acts, dueb. destruct (_ && _); reflexivity. Qed.
Lemma loss_acts_ids every it v : ids (loss_acts every it v) = [].
Proof. unfold loss_acts. destruct (_ && _); reflexivity. Qed.

Definition batch_acts (l : list (option Qc)) : list act :=
  flat_map (fun q => ABatch :: match q with Some v => [AObjective v] | None => [] end) l.
Lemma batch_acts_cnt f l : (forall a, f a = true -> a <> ABatch /\ forall v, a <> AObjective v) -> cnt f (batch_acts l) = 0%nat.
Proof.
  intros H. unfold batch_acts. induction l as [|[v|] l IH]; cbn [flat_map]; [reflexivity| |]; cn; rewrite IH.
  - destruct (f ABatch) eqn:A; [destruct (H _ A); congruence|].
    destruct (f (AObjective v)) eqn:B; [destruct (H _ B) as [_ C]; exfalso; apply (C v); reflexivity|]. reflexivity.
  - destruct (f ABatch) eqn:A; [destruct (H _ A); congruence|]. reflexivity.
Qed.
Ltac ba := rewrite ?(batch_acts_cnt isS), ?(batch_acts_cnt isO), ?(batch_acts_cnt isP), ?(batch_acts_cnt isC), ?(batch_acts_cnt isL), ?(batch_acts_cnt isI)
  by (intros []; cbn; intros; try discriminate; (split; [|intros]; discriminate)).
Lemma batch_acts_ids l : ids (batch_acts l) = [].
Proof. unfold batch_acts. induction l as [|[v|] l IH]; cbn; auto. Qed.

(** n-slack *)
Lemma ns_acts_cnt every it i : cnt isS (ns_acts every it i) = 1%nat /\ cnt isO (ns_acts every it i) = 1%nat /\
  cnt isP (ns_acts every it i) = 1%nat /\ cnt isC (ns_acts every it i) = 0%nat /\
  cnt isL (ns_acts every it i) = (if dueb every it then 1 else 0)%nat /\ cnt isI (ns_acts every it i) = (if dueb every it then 1 else 0)%nat.
Proof.
  unfold ns_acts. fold (batch_acts (ni_batches i)).
  repeat split; cn; ba; la; rewrite ?loss_acts_L, ?loss_acts_I; cbn; lia. 
Qed.
Lemma ns_acts_ids every it i : ids (ns_acts every it i) = [].
Proof.
  unfold ns_acts. fold (batch_acts (ni_batches i)). cbn [ids flat_map]. fold (ids (batch_acts (ni_batches i) ++ [AAppendLocal] ++ loss_acts every it (ni_loss i) ++ [APrimal (ni_primal i)])).
  rewrite !ids_app, batch_acts_ids, loss_acts_ids. reflexivity.
Qed.
Definition dues (every a n : nat) : nat := length (filter (dueb every) (seq a n)).
Lemma dues_S every a n : dues every a (S n) = ((if dueb every a then 1 else 0) + dues every (S a) n)%nat.
Proof. unfold dues. cbn. destruct (dueb every a); reflexivity. Qed.
Lemma ns_prog_cnt every its k : forall it sw, exists n,
  cnt isS (ns_prog every its k it sw) = n /\ cnt isO (ns_prog every its k it sw) = n /\
  cnt isP (ns_prog every its k it sw) = n /\ cnt isC (ns_prog every its k it sw) = 0%nat /\
  cnt isL (ns_prog every its k it sw) = dues every it n /\ cnt isI (ns_prog every its k it sw) = dues every it n.
Proof.
  induction k as [|k IH]; intros it sw; cbn [ns_prog].
  - exists 0%nat. repeat split.
  - destruct (ns_acts_cnt every it (its it)) as (A & B & C & D & E & F).
    destruct (ni_stop (its it)).
    + destruct sw.
      * destruct (IH (S it) false) as (n & A' & B' & C' & D' & E' & F'). exists (S n).
        rewrite !cnt_app, dues_S. lia.
      * exists 1%nat. rewrite !cnt_app, !cnt_nil, dues_S. change (dues every (S it) 0) with 0%nat. lia.
    + destruct (IH (S it) sw) as (n & A' & B' & C' & D' & E' & F'). exists (S n).
      rewrite !cnt_app, !cnt_cons, dues_S. cbn [isS isO isP isC isL isI]. lia.
Qed.
(** iteration numbers of the logger *)
Definition log_ok (max it : nat) (l : list (option nat)) : Prop :=
  exists js, l = map Some js /\ StronglySorted lt js /\ Forall (fun i => (it <= i < max)%nat) js.
Lemma log_ok_nil max it : log_ok max it [].
Proof. exists []. repeat split; constructor. Qed.
Lemma log_ok_weak max it it' l : (it <= it')%nat -> log_ok max it' l -> log_ok max it l.
Proof. intros H (js & A & B & C). exists js. repeat split; auto. eapply Forall_impl; [|exact C]. cbn; intros; lia. Qed.
Lemma log_ok_cons max it l : (it < max)%nat -> log_ok max (S it) l -> log_ok max it (Some it :: l).
Proof.
  intros H (js & -> & B & C). exists (it :: js). repeat split; auto.
  - constructor; auto. eapply Forall_impl; [|exact C]. cbn; intros; lia.
  - constructor; [lia|]. eapply Forall_impl; [|exact C]. cbn; intros; lia.
Qed.
Lemma ids_cons a l : ids (a :: l) = match a with ALog i => [i] | _ => [] end ++ ids l.
Proof. reflexivity. Qed.
Lemma ns_prog_ids every its k : forall it sw, log_ok (it + k) it (ids (ns_prog every its k it sw)).
Proof.
  induction k as [|k IH]; intros it sw; cbn [ns_prog]; [apply log_ok_nil|].
  rewrite ids_app, ns_acts_ids. cbn [app].
  replace (it + S k)%nat with (S it + k)%nat by lia.
  destruct (ni_stop (its it)).
  - destruct sw; [|apply log_ok_nil]. eapply log_ok_weak; [|apply IH]. lia.
  - rewrite ids_cons. cbn [app]. apply log_ok_cons; [lia|apply IH].
Qed.
(** one-slack *)
Lemma os_prog_cnt every its k : forall it sw, exists n m,
  cnt isS (os_prog every its k it sw) = n /\ cnt isO (os_prog every its k it sw) = n /\
  cnt isP (os_prog every its k it sw) = n /\ cnt isC (os_prog every its k it sw) = n /\
  cnt isL (os_prog every its k it sw) = m /\ cnt isI (os_prog every its k it sw) = m /\
  (sw = false -> m = dues every it n).
Proof.
  induction k as [|k IH]; intros it sw; cbn [os_prog].
  - exists 0%nat, 0%nat. repeat split.
  - destruct (its it) as [|l p c o].
    + destruct sw.
      * destruct (IH (S it) false) as (n & m & A & B & C & D & E & F & G). exists n, m. repeat split; auto. discriminate.
      * exists 0%nat, 0%nat. repeat split.
    + destruct (IH (S it) sw) as (n & m & A & B & C & D & E & F & G).
      exists (S n), ((if dueb every it then 1 else 0) + m)%nat. cn. la. rewrite loss_acts_L, loss_acts_I, dues_S.
      repeat split; try lia. intros Hs. rewrite (G Hs). lia.
Qed.
Lemma os_prog_ids every its k : forall it sw, log_ok (it + k) it (ids (os_prog every its k it sw)).
Proof.
  induction k as [|k IH]; intros it sw; cbn [os_prog]; [apply log_ok_nil|].
  replace (it + S k)%nat with (S it + k)%nat by lia.
  destruct (its it).
  - destruct sw; [|apply log_ok_nil]. eapply log_ok_weak; [|apply IH]. lia.
  - rewrite ids_cons, !ids_app, loss_acts_ids, !ids_cons. cbn [ids flat_map app]. apply log_ok_cons; [lia|apply IH].
Qed.
(** Frank-Wolfe *)
Lemma fwb_prog_cnt its k : forall it, exists n,
  cnt isS (fwb_prog its k it) = n /\ cnt isO (fwb_prog its k it) = n /\
  cnt isP (fwb_prog its k it) = n /\ cnt isC (fwb_prog its k it) = 0%nat /\
  cnt isL (fwb_prog its k it) = 0%nat /\ cnt isI (fwb_prog its k it) = 0%nat.
Proof.
  induction k as [|k IH]; intros it; cbn [fwb_prog].
  - exists 0%nat. repeat split.
  - unfold fw_checked. destruct (fi_stop (its it)).
    + exists 1%nat. repeat split.
    + destruct (IH (S it)) as (n & A & B & C & D & E & F). exists (S n). cn. lia.
Qed.
Lemma fwb_prog_ids its k : forall it, log_ok (it + k) it (ids (fwb_prog its k it)).
Proof.
  induction k as [|k IH]; intros it; cbn [fwb_prog]; [apply log_ok_nil|].
  replace (it + S k)%nat with (S it + k)%nat by lia.
  unfold fw_checked. rewrite ids_app, !ids_cons. cbn [ids flat_map app].
  apply log_ok_cons; [lia|]. destruct (fi_stop (its it)); [apply log_ok_nil|apply IH].
Qed.
Lemma fwbc_prog_cnt check its k : forall it, exists n,
  cnt isS (fwbc_prog check its k it) = n /\ cnt isO (fwbc_prog check its k it) = n /\
  cnt isP (fwbc_prog check its k it) = n /\ cnt isC (fwbc_prog check its k it) = 0%nat /\
  cnt isL (fwbc_prog check its k it) = 0%nat /\ cnt isI (fwbc_prog check its k it) = 0%nat.
Proof.
  induction k as [|k IH]; intros it; cbn [fwbc_prog].
  - exists 0%nat. repeat split.
  - unfold fw_checked. destruct (IH (S it)) as (n & A & B & C & D & E & F).
    destruct (_ && _); destruct (check =? 0)%nat; destruct (fi_stop (its it)); cn.
    all: try (exists 1%nat; repeat split; fail).
    all: try (exists 0%nat; repeat split; fail).
    + exists (S n). lia. + exists n. lia.
Qed.
Lemma fwbc_prog_ids check its k : forall it, log_ok (it + k) it (ids (fwbc_prog check its k it)).
Proof.
  induction k as [|k IH]; intros it; cbn [fwbc_prog]; [apply log_ok_nil|].
  replace (it + S k)%nat with (S it + k)%nat by lia.
  unfold fw_checked. rewrite ids_app, !ids_cons.
  assert (E : ids (if negb (check =? 0)%nat && (it mod check =? 0)%nat then [APrimal (fi_primal (its it)); AAppendObj (fi_dual (its it)); AStamp] else []) = []) by (destruct (_ && _); reflexivity).
  rewrite E. cbn [app]. apply log_ok_cons; [lia|].
  destruct (check =? 0)%nat; [apply log_ok_nil|]. destruct (fi_stop (its it)); [apply log_ok_nil|apply IH].
Qed.
(** subgradient *)
Lemma sg_prog_cnt every its k : forall it, exists n,
  cnt isS (sg_prog every its k it) = n /\ cnt isO (sg_prog every its k it) = n /\
  cnt isP (sg_prog every its k it) = 0%nat /\ cnt isC (sg_prog every its k it) = 0%nat /\
  cnt isL (sg_prog every its k it) = dues every it n /\ cnt isI (sg_prog every its k it) = dues every it n.
Proof.
  induction k as [|k IH]; intros it; cbn [sg_prog].
  - exists 0%nat. repeat split.
  - destruct (si_break (its it)).
    + exists 0%nat. repeat split.
    + destruct (IH (S it)) as (n & A & B & C & D & E & F). exists (S n). cn. la. rewrite loss_acts_L, loss_acts_I, dues_S. lia.
Qed.
Lemma sg_prog_ids every its k : forall it, log_ok (it + k) it (ids (sg_prog every its k it)).
Proof.
  induction k as [|k IH]; intros it; cbn [sg_prog]; [apply log_ok_nil|].
  replace (it + S k)%nat with (S it + k)%nat by lia.
  destruct (si_break (its it)); [apply log_ok_nil|].
  rewrite !ids_app, loss_acts_ids, !ids_cons. cbn [ids flat_map app]. apply log_ok_cons; [lia|apply IH].
Qed.
Lemma lsg_prog_cnt every its k : forall it, exists n m,
  cnt isS (lsg_prog every its k it) = (n + m)%nat /\ cnt isO (lsg_prog every its k it) = n /\
  cnt isP (lsg_prog every its k it) = 0%nat /\ cnt isC (lsg_prog every its k it) = 0%nat /\
  cnt isL (lsg_prog every its k it) = dues every it n /\ cnt isI (lsg_prog every its k it) = dues every it n /\
  ((forall i, si_break (its i) = false) -> m = 0%nat).
Proof.
  induction k as [|k IH]; intros it; cbn [lsg_prog].
  - exists 0%nat, 0%nat. repeat split.
  - destruct (si_break (its it)) eqn:Eb.
    + exists 0%nat, 1%nat. repeat split. intros H. rewrite H in Eb. discriminate.
    + destruct (IH (S it)) as (n & m & A & B & C & D & E & F & G). exists (S n), m. cn. la. rewrite loss_acts_L, loss_acts_I, dues_S.
      repeat split; try lia. exact G.
Qed.
Lemma lsg_prog_ids every its k : forall it, log_ok (it + k) it (ids (lsg_prog every its k it)).
Proof.
  induction k as [|k IH]; intros it; cbn [lsg_prog]; [apply log_ok_nil|].
  replace (it + S k)%nat with (S it + k)%nat by lia.
  rewrite ids_cons. destruct (si_break (its it)); [apply log_ok_nil|].
  rewrite !ids_cons, ids_app, loss_acts_ids, !ids_cons. cbn [ids flat_map app]. apply log_ok_cons; [lia|apply IH].
Qed.

(** a cut program logs a prefix *)
Lemma log_ok_prefix max it l m : log_ok max it (l ++ m) -> log_ok max it l.
Proof.
  intros (js & E & Srt & F). exists (firstn (length l) js).
  assert (El : l = map Some (firstn (length l) js)).
  { rewrite <- firstn_map, <- E, firstn_app, Nat.sub_diag, firstn_O, app_nil_r, firstn_all. reflexivity. }
  split; [exact El|]. rewrite <- (firstn_skipn (length l) js) in Srt, F.
  split; [|apply Forall_app in F; tauto].
  clear - Srt. set (a := firstn (length l) js) in *. clearbody a. induction a as [|x a IH]; [constructor|].
  cbn in Srt. inversion Srt as [|? ? S' F']; subst. constructor; [auto|]. apply Forall_app in F'. tauto.
Qed.
Lemma log_ok_until max it cut body : log_ok max it (ids body) -> log_ok max it (ids (until cut body)).
Proof.
  destruct cut as [j|]; cbn; [|auto]. intros H. rewrite <- (firstn_skipn j body), ids_app in H. eapply log_ok_prefix; eauto.
Qed.

Section F.
Variable now : nat -> Qc.
Lemma fit_inv lg cut r0 body final r : fit_acts now lg cut r0 body final = Ok r -> acts now lg (until cut body ++ final) r0 = Ok r.
Proof. unfold fit_acts. rewrite acts_app. auto. Qed.

(** the logger *)
Lemma fit_logged lg cut r0 body pre max r :
  fit_acts now lg cut r0 body (pre ++ [ALog None]) = Ok r -> lg = true -> r_log r0 = [] ->
  ids pre = [] -> log_ok max 0 (ids body) -> logged_in_order max r.
Proof.
  intros H -> L0 Ep Lb. apply fit_inv in H. rewrite app_assoc, acts_app in H.
  apply bind_inv in H as (r1 & H1 & H2). cbn in H2. injection H2 as <-. cbn.
  destruct (acts_log _ _ _ _ _ H1) as (calls & E & M & F). rewrite L0 in E. cbn in E.
  exists calls. split; [cbn; rewrite E; reflexivity|]. split; [|exact F].
  rewrite M, ids_app, Ep, app_nil_r. destruct (log_ok_until _ _ cut _ Lb) as (js & A & B & C).
  exists js. repeat split; auto. eapply Forall_impl; [|exact C]. cbn; intros; lia.
Qed.
End F.
