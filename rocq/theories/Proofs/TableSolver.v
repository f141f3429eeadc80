(** An exact QP solver for finitely many n-slack problems, for the examples: a table of working
    sets with dual points; an answer is only given if the duality gap is zero. *)
From Verif Require Import Spec.QPSpec Model.OneSlack Proofs.Arrays Proofs.LossProofs Proofs.QPProofs Proofs.QPProofs2 Proofs.QPProofs3 Proofs.NSlackProofs.

Lemma vec_eqb_eq u : forall v, vec_eqb u v = true -> u = v.
Proof.
  induction u as [|a u IH]; intros [|b v] H; try discriminate; auto.
  apply Bool.andb_true_iff in H. destruct H as [H1 H2]. cbn [combine forallb fst snd length] in *.
  apply Bool.andb_true_iff in H2. destruct H2 as [H2 H3]. destruct (Qceqb_spec a b) as [->|]; [|discriminate]. f_equal. apply IH.
  unfold vec_eqb. rewrite H3. cbn [Nat.eqb] in H1. rewrite H1. reflexivity.
Qed.
Lemma rows_eqb_eq u : forall v, rows_eqb u v = true -> u = v.
Proof.
  induction u as [|a u IH]; intros [|b v] H; try discriminate; auto.
  apply Bool.andb_true_iff in H. destruct H as [H1 H2]. cbn [combine forallb fst snd length] in *.
  apply Bool.andb_true_iff in H2. destruct H2 as [H2 H3]. apply vec_eqb_eq in H2. subst b. f_equal. apply IH.
  unfold rows_eqb. rewrite H3. cbn [Nat.eqb] in H1. rewrite H1. reflexivity.
Qed.
Definition mat_eqb (a b : mat) : bool := (mrows a =? mrows b)%nat && (mcols a =? mcols b)%nat && rows_eqb (mdat a) (mdat b).
Lemma mat_eqb_eq a b : mat_eqb a b = true -> a = b.
Proof.
  unfold mat_eqb. intros H. apply Bool.andb_true_iff in H. destruct H as [H H3]. apply Bool.andb_true_iff in H. destruct H as [H1 H2].
  apply Nat.eqb_eq in H1. apply Nat.eqb_eq in H2. apply rows_eqb_eq in H3. destruct a, b; cbn in *; congruence.
Qed.
Definition qp_eqb (p q : qp) : bool :=
  mat_eqb (qp_P p) (qp_P q) && vec_eqb (qp_q p) (qp_q q) && mat_eqb (qp_G p) (qp_G q) && vec_eqb (qp_h p) (qp_h q) &&
  mat_eqb (qp_A p) (qp_A q) && vec_eqb (qp_b p) (qp_b q).
Lemma qp_eqb_eq p q : qp_eqb p q = true -> p = q.
Proof.
  unfold qp_eqb. intros H. repeat (apply Bool.andb_true_iff in H; let G := fresh in destruct H as [H G]; first [apply mat_eqb_eq in G|apply vec_eqb_eq in G]).
  apply mat_eqb_eq in H. destruct p, q; cbn in *; congruence.
Qed.

Notation groups_t := (list (list (list Qc * Qc))) (only parsing).
Definition certified (d : nat) (C : Qc) (n : nat) (groups : groups_t) (a : list Qc) : bool :=
  let psis := map fst (concat groups) in
  let w := comb d a psis in
  forallb (fun c => length (fst c) =? d)%nat (concat groups) && (length a =? length psis)%nat &&
  forallb (fun v => Qcleb 0 v) a &&
  forallb (fun i => Qcleb (sumn (length psis) (fun c => ind (nth c (owners (map (@length _) groups)) O =? i)%nat * get1 a c)) C) (seq 0 n) &&
  Qceqb (dual_value d groups a) (C * lsum (map (group_slack w) groups) + normsq w / (1 + 1)).
Lemma certified_optimal d C n groups a p : certified d C n groups a = true -> nslack_of C None n groups 0 = Ok p -> qp_optimal p a.
Proof.
  unfold certified. intros H HP. repeat (apply Bool.andb_true_iff in H; let G := fresh "G" in destruct H as [H G]).
  assert (HF : Forall (fun c => length (fst c) = d) (concat groups)).
  { apply Forall_forall. intros c Hc. rewrite forallb_forall in H. apply Nat.eqb_eq, H, Hc. }
  assert (HN := nslack_of_nonempty _ _ _ _ _ _ HP).
  destruct (nslack_of_feasible d C None n groups 0 p a HN HF HP) as [FE [VA LG]]. apply Nat.eqb_eq in G2.
  assert (OKa : dual_ok d C None n groups a).
  { split; [exact G2|]. split; [|split].
    - intros c Hc. rewrite forallb_forall in G1. rewrite <- G2 in Hc. specialize (G1 (get1 a c) (nth_In _ _ Hc)). destruct (Qcleb_spec 0 (get1 a c)); [assumption|discriminate].
    - intros i Hi. rewrite forallb_forall in G0. specialize (G0 i). assert (I : In i (seq 0 n)) by (apply in_seq; lia). specialize (G0 I).
      match type of G0 with Qcleb ?u ?v = true => destruct (Qcleb_spec u v); [assumption|discriminate] end.
    - discriminate. }
  split; [apply FE, OKa|]. intros z Hz.
  destruct (nslack_weak d C None n groups 0 p z (Qcle_refl _) HF HP Hz) as [wz [_ [_ [_ W]]]].
  set (w := comb d a (map fst (concat groups))) in *.
  specialize (W w (map (group_slack w) groups) (comb_length _ _ _) (covers_group_slack _ _)).
  destruct (Qceqb_spec (dual_value d groups a) (C * lsum (map (group_slack w) groups) + normsq w / (1 + 1))) as [E|]; [|discriminate].
  rewrite <- E in W. rewrite VA by (rewrite map_length in G2; exact G2).
  replace (0 * normsq a / (1 + 1)) with 0 by (field; discriminate). qclra.
Qed.
Definition table_solver (d : nat) (C : Qc) (n : nat) (table : list (groups_t * list Qc)) : qp_solver := fun p =>
  match find (fun e => match nslack_of C None n (fst e) 0 with Ok q => qp_eqb q p && certified d C n (fst e) (snd e) | Err _ => false end) table with
  | Some e => Some (snd e, qp_value p (snd e))
  | None => None
  end.
Lemma table_exact d C n table : qp_exact (table_solver d C n table).
Proof.
  intros p x v H. unfold table_solver in H. destruct (find _ table) as [e|] eqn:F; [|discriminate]. injection H as <- <-.
  apply find_some in F. destruct F as [_ F]. destruct (nslack_of C None n (fst e) 0) as [q|] eqn:Q; [|discriminate].
  apply Bool.andb_true_iff in F. destruct F as [F1 F2]. apply qp_eqb_eq in F1. subst q. split; [|reflexivity].
  exact (certified_optimal d C n _ _ _ F2 Q).
Qed.
