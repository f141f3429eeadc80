(** An n-slack fit with a batch per sample. *)
From Coq Require Import ZArith.
From Verif Require Import Model.NSlack Spec.NSlackSpec Spec.BatchCurveSpec Proofs.Arrays Proofs.LossProofs Proofs.LearnerProofs
  Proofs.NSlackProofs3 Proofs.PrimalCurve3.

(** a solver that answers all weight on the first constraint if that is feasible *)
Definition ex58_solver : qp_solver := fun p =>
  let x := match qp_q p with [] => [] | _ :: q => 1 :: vzero (length q) end in
  if forallb (fun r => Qcleb (dot (nth r (mdat (qp_G p)) []) x) (get1 (qp_h p) r)) (seq 0 (mrows (qp_G p))) &&
     forallb (fun r => Qceqb (dot (nth r (mdat (qp_A p)) []) x) (get1 (qp_b p) r)) (seq 0 (mrows (qp_A p)))
  then Some (x, qp_value p x) else None.
Lemma ex58_sound : qp_sound ex58_solver.
Proof.
  intros p x v H. unfold ex58_solver in H. set (z := match qp_q p with [] => [] | _ :: q => 1 :: vzero (length q) end) in *.
  destruct (forallb _ (seq 0 (mrows (qp_G p)))) eqn:E1; [|discriminate]. destruct (forallb _ (seq 0 (mrows (qp_A p)))) eqn:E2; [|discriminate].
  cbn [andb] in H. assert (z = x /\ qp_value p z = v) as [<- <-] by (split; congruence). split; [|reflexivity].
  rewrite forallb_forall in E1, E2. split; [|split].
  - unfold z. destruct (qp_q p) as [|a q]; [reflexivity|]. cbn [length]. rewrite vzero_length. reflexivity.
  - intros r Hr. specialize (E1 r ltac:(apply in_seq; lia)). destruct (Qcleb_spec (dot (nth r (mdat (qp_G p)) []) z) (get1 (qp_h p) r)); [assumption|discriminate].
  - intros r Hr. specialize (E2 r ltac:(apply in_seq; lia)). destruct (Qceqb_spec (dot (nth r (mdat (qp_A p)) []) z) (get1 (qp_b p) r)); [assumption|discriminate].
Qed.
Definition ex58_prm := NSParams 1 10 (Q2Qc (1 # 1000)) true false None 1 (Q2Qc (1 # 100000)) 50.
Lemma ex58_oracle : oracle_exact ex54_m ex54_T 1 (combine [tt; tt] [0%nat; 0%nat]).
Proof. intros p Hp. apply ex54_oracle. destruct Hp as [<-|[<-|[]]]; left; reflexivity. Qed.
Lemma ex58_near : forall p y', In p (combine [tt; tt] [0%nat; 0%nat]) -> t_label ex54_T (fst p) y' ->
  normsq (vsub (t_feat ex54_T (fst p) (snd p)) (t_feat ex54_T (fst p) y')) <= 1 * 1.
Proof.
  intros p y' Hp Ly. assert (E : p = (tt, 0%nat)) by (destruct Hp as [<-|[<-|[]]]; reflexivity). subst p. cbn [fst snd] in *.
  destruct y' as [|[|[|y']]]; [discriminate|discriminate|discriminate|]. cbn in Ly. lia.
Qed.
Lemma ex58_run : match ns_fit Nat.eqb ex58_solver ex58_prm ex54_m None [tt; tt] [0%nat; 0%nat] None None with
  | Ok (st, c, p, r) => (map this (st_w st), map this c, map this p, r) = ([1], [5 # 8; 5 # 8; 5 # 8; 5 # 8], [17 # 8; 3 # 2; 3 # 2; 3 # 2], NoNewConstraint)%Q
  | _ => False end.
Proof. vm_compute. reflexivity. Qed.
