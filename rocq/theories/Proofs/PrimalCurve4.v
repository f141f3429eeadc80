(** A run of the one-slack learner with an entry of the primal curve, computed from the cache,
    that is below the optimum. *)
From Coq Require Import ZArith.
From Verif Require Import Model.OneSlack Spec.QPSpec Spec.NSlackSpec Spec.OneSlackSpec Proofs.Arrays Proofs.LossProofs Proofs.LearnerProofs Proofs.QPProofs
  Proofs.OneSlackQP Proofs.OneSlackProofs2 Proofs.Settle3 Proofs.PrimalCurve Proofs.PrimalCurve2 Proofs.PrimalCurve3.

(** ** a solver given by a table of answers *)
Definition rows_same (a b : list (list Qc)) : bool := (length a =? length b)%nat && forallb (fun p => qcs_eqb (fst p) (snd p)) (combine a b).
Lemma rows_same_eq a : forall b, rows_same a b = true -> a = b.
Proof.
  induction a as [|u a IH]; intros [|v b] H; try reflexivity; try discriminate. unfold rows_same in H. cbn [length combine forallb fst snd Nat.eqb] in H.
  apply andb_prop in H. destruct H as [H1 H2]. apply andb_prop in H2. destruct H2 as [H2 H3]. f_equal; [apply qcs_eqb_eq; exact H2|]. apply IH. unfold rows_same. rewrite H1, H3. reflexivity.
Qed.
Definition mat_same (a b : mat) : bool := (mrows a =? mrows b)%nat && (mcols a =? mcols b)%nat && rows_same (mdat a) (mdat b).
Lemma mat_same_eq a b : mat_same a b = true -> a = b.
Proof.
  destruct a, b. unfold mat_same. cbn. intro H. apply andb_prop in H. destruct H as [H H3]. apply andb_prop in H. destruct H as [H1 H2].
  apply Nat.eqb_eq in H1, H2. apply rows_same_eq in H3. congruence.
Qed.
Definition qp_same (p q : qp) : bool :=
  mat_same (qp_P p) (qp_P q) && qcs_eqb (qp_q p) (qp_q q) && mat_same (qp_G p) (qp_G q) && qcs_eqb (qp_h p) (qp_h q) && mat_same (qp_A p) (qp_A q) && qcs_eqb (qp_b p) (qp_b q).
Lemma qp_same_eq p q : qp_same p q = true -> p = q.
Proof.
  destruct p as [a1 a2 a3 a4 a5 a6], q as [b1 b2 b3 b4 b5 b6]. unfold qp_same. cbn [qp_P qp_q qp_G qp_h qp_A qp_b]. intro H. do 5 (apply andb_prop in H; let K := fresh "K" in destruct H as [H K]).
  apply mat_same_eq in H, K0, K2. apply qcs_eqb_eq in K, K1, K3. congruence.
Qed.
Fixpoint table_solver (t : list (qp * (list Qc * Qc))) : qp_solver := fun p =>
  match t with
  | [] => None
  | (q, r) :: t => if qp_same p q then Some r else table_solver t p
  end.
Lemma table_exact t : Forall (fun e => qp_optimal (fst e) (fst (snd e)) /\ snd (snd e) = qp_value (fst e) (fst (snd e))) t -> qp_exact (table_solver t).
Proof.
  induction 1 as [|[q [a v0]] t H _ IH]; intros p x v E; [discriminate|]. cbn [table_solver] in E. destruct (qp_same p q) eqn:S; [|exact (IH p x v E)].
  apply qp_same_eq in S. injection E as <- <-. subst p. exact H.
Qed.
(** multipliers [a] are optimal if some weights and slack have the same value *)
Lemma one_slack_certificate C n cs p a w xi : Forall (fun c : list Qc * Qc => length (fst c) = length w) cs ->
  one_slack_problem C None n (map fst cs) (map snd cs) 0 = Ok p -> length a = length cs -> Forall (fun v => 0 <= v) a -> lsum a = C * ofN n ->
  Forall (fun c => violation w c <= xi) cs -> - qp_value p a = C * ofN n * xi + normsq w / (1 + 1) -> qp_optimal p a.
Proof.
  intros HF HP La Ha HS HX HV. split.
  - apply (oslack_feasible (length w) C None n cs 0 p a HF HP). split; [exact La|]. split; [|split; [exact HS|discriminate]].
    intros c Hc. rewrite Forall_forall in Ha. apply Ha. apply nth_In. rewrite La. exact Hc.
  - intros z Hz. destruct (oneslack_weak (length w) C None n cs 0 p z (Qcle_refl 0) HF HP Hz) as [_ [_ [_ [_ W]]]].
    specialize (W w xi eq_refl ltac:(rewrite Forall_forall in HX; exact HX)). rewrite <- HV in W. set (u := qp_value p z) in *. set (v := qp_value p a) in *. clearbody u v. qclra.
Qed.

(** ** the sample: two inputs, labels 0, 1, 2 *)
Definition ex56_feat (x : bool) (y : nat) : Qc :=
  match x, y with
  | false, 1%nat => Q2Qc (1 # 2) | false, _ => 0
  | true, O => Q2Qc (3 # 2) | true, 1%nat => 0 | true, _ => Q2Qc (2 # 1)
  end.
Definition ex56_loss (y z : nat) : Qc :=
  match y, z with
  | O, 1%nat => 1 | O, 2%nat => Q2Qc (1 # 2)
  | 1%nat, O => Q2Qc (2 # 1) | 1%nat, 2%nat => Q2Qc (5 # 2)
  | _, _ => 0
  end.
Definition ex56_T : task bool nat := Task (fun _ y => (y < 3)%nat) (fun x y => [ex56_feat x y]) ex56_loss.
Definition ex56_m : smodel bool nat :=
  SModel 1 false (fun x y _ => Ok [ex56_feat x y]) (fun x w => Ok (best3 (fun y => dot w [ex56_feat x y])))
    (fun x y w => Ok (best3 (fun z => dot w [ex56_feat x z] + ex56_loss y z))) (fun _ => false) (fun y z => Ok (ex56_loss y z)) (fun _ _ => Err AttributeError).
Definition ex56_X : list bool := [false; true].
Definition ex56_Y : list nat := [0; 1]%nat.
(** the defaults of OneSlackSSVM but for max_iter=20, inference_cache=50 *)
Definition ex56_prm : os_params := OSParams 1 20 (Q2Qc (1 # 1000)) false false None 50 (Q2Qc (1 # 100000)) 50 TolAuto.
Definition ex56_ceq (a b : nat) : res bool := Ok (a =? b)%nat.
Definition ex56_cons : list (list Qc * Qc) :=
  [([0], 0); ([- Q2Qc (5 # 4)], Q2Qc (7 # 4)); ([0], Q2Qc (1 # 4)); ([- (1)], Q2Qc (3 # 2)); ([- Q2Qc (3 # 4)], Q2Qc (5 # 4))].
Definition ex56_qp (k : nat) : qp :=
  match one_slack_problem 1 None 2 (map fst (firstn k ex56_cons)) (map snd (firstn k ex56_cons)) 0 with
  | Ok p => p | Err _ => QP (Mat 0 0 []) [] (Mat 0 0 []) [] (Mat 0 0 []) [] end.
Definition ex56_table : list (qp * (list Qc * Qc)) :=
  [(ex56_qp 2, ([Q2Qc (22 # 25); Q2Qc (28 # 25)], - Q2Qc (49 # 50)));
   (ex56_qp 3, ([0; Q2Qc (24 # 25); Q2Qc (26 # 25)], - Q2Qc (61 # 50)));
   (ex56_qp 4, ([0; 0; Q2Qc (3 # 4); Q2Qc (5 # 4)], - Q2Qc (41 # 32)));
   (ex56_qp 5, ([0; 0; Q2Qc (2 # 9); 0; Q2Qc (16 # 9)], - Q2Qc (25 # 18)))].
Definition ex56_solver : qp_solver := table_solver ex56_table.
Definition ex56_primal : list Qc := [Q2Qc (7 # 2); Q2Qc (37 # 25); Q2Qc (33 # 25); Q2Qc (45 # 32); Q2Qc (25 # 18)].
Definition ex56_curve : list Qc := [Q2Qc (49 # 50); Q2Qc (61 # 50); Q2Qc (41 # 32); Q2Qc (25 # 18); Q2Qc (25 # 18)].
Lemma ex56_optimal k a v w xi : (0 < k)%nat -> In (ex56_qp k, (a, v)) ex56_table ->
  length a = length (firstn k ex56_cons) -> forallb (fun x => Qcleb 0 x) a && Qceqb (lsum a) (1 * ofN 2) &&
    forallb (fun c => (length (fst c) =? 1)%nat && Qcleb (violation [w] c) xi) (firstn k ex56_cons) &&
    Qceqb (- qp_value (ex56_qp k) a) (1 * ofN 2 * xi + normsq [w] / (1 + 1)) && Qceqb v (qp_value (ex56_qp k) a) &&
    match one_slack_problem 1 None 2 (map fst (firstn k ex56_cons)) (map snd (firstn k ex56_cons)) 0 with Ok _ => true | Err _ => false end = true ->
  qp_optimal (ex56_qp k) a /\ v = qp_value (ex56_qp k) a.
Proof.
  intros _ _ La H. do 5 (apply andb_prop in H; let K := fresh "K" in destruct H as [H K]).
  rewrite forallb_forall in H, K2. destruct (Qceqb_spec (lsum a) (1 * ofN 2)) as [E1|]; [|discriminate].
  destruct (Qceqb_spec (- qp_value (ex56_qp k) a) (1 * ofN 2 * xi + normsq [w] / (1 + 1))) as [E2|]; [|discriminate].
  destruct (Qceqb_spec v (qp_value (ex56_qp k) a)) as [E3|]; [|discriminate]. split; [|exact E3].
  apply (one_slack_certificate 1 2 (firstn k ex56_cons) (ex56_qp k) a [w] xi); auto.
  - apply Forall_forall. intros c Hc. apply K2 in Hc. apply andb_prop in Hc. apply Nat.eqb_eq. apply Hc.
  - unfold ex56_qp. destruct (one_slack_problem _ _ _ _ _ _); [reflexivity|discriminate].
  - apply Forall_forall. intros c Hc. apply H in Hc. destruct (Qcleb_spec 0 c); [assumption|discriminate].
  - apply Forall_forall. intros c Hc. apply K2 in Hc. apply andb_prop in Hc. destruct Hc as [_ Hc]. destruct (Qcleb_spec (violation [w] c) xi); [assumption|discriminate].
Qed.
Lemma ex56_exact : qp_exact ex56_solver.
Proof.
  apply table_exact. unfold ex56_table. repeat apply Forall_cons; [..|apply Forall_nil]; cbn [fst snd].
  - apply (ex56_optimal 2 _ _ (- Q2Qc (7 # 5)) 0); [lia|cbn; auto|reflexivity|vm_compute; reflexivity].
  - apply (ex56_optimal 3 _ _ (- Q2Qc (6 # 5)) (Q2Qc (1 # 4))); [lia|cbn; auto|reflexivity|vm_compute; reflexivity].
  - apply (ex56_optimal 4 _ _ (- Q2Qc (5 # 4)) (Q2Qc (1 # 4))); [lia|cbn; auto|reflexivity|vm_compute; reflexivity].
  - apply (ex56_optimal 5 _ _ (- Q2Qc (4 # 3)) (Q2Qc (1 # 4))); [lia|cbn; auto|reflexivity|vm_compute; reflexivity].
Qed.
Lemma ex56_oracle : oracle_exact ex56_m ex56_T 1 (combine ex56_X ex56_Y).
Proof.
  assert (G : forall x y, (y < 3)%nat -> ex56_loss y y = 0 -> implements ex56_m ex56_T 1 x y /\ forall w, length w = 1%nat -> exact_laug ex56_m ex56_T w x y).
  { intros x y Hy HL. split.
    - split; [exact Hy|]. split; [exact HL|]. intros y' Hy'. cbn. repeat split.
    - intros w Hw. exists (best3 (fun z => dot w [ex56_feat x z] + ex56_loss y z)). split; [reflexivity|].
      split; [apply (best3_best (fun z => dot w [ex56_feat x z] + ex56_loss y z) 0%nat); lia|].
      intros y' Hy'. exact (proj1 (best3_best (fun z => dot w [ex56_feat x z] + ex56_loss y z) y' Hy')). }
  intros p [<-|[<-|[]]]; cbn [fst snd]; apply G; try lia; reflexivity.
Qed.
Lemma ex56_batch : batch_exact (base_bmodel ex56_m) ex56_T 1 ex56_X ex56_Y.
Proof. apply base_batch_exact; [reflexivity|reflexivity|exact ex56_oracle]. Qed.
Lemma ex56_run : exists st, os_fit ex56_ceq ex56_solver ex56_prm (base_bmodel ex56_m) None ex56_X ex56_Y Cold = Ok (st, OSNoConstraint) /\
  o_primal st = ex56_primal /\ o_curve st = ex56_curve /\ o_cached st = [false; false; true; false; false].
Proof.
  assert (C : match os_fit ex56_ceq ex56_solver ex56_prm (base_bmodel ex56_m) None ex56_X ex56_Y Cold with
              | Ok (st, OSNoConstraint) => qcs_eqb (o_primal st) ex56_primal && qcs_eqb (o_curve st) ex56_curve &&
                  (if list_eq_dec Bool.bool_dec (o_cached st) [false; false; true; false; false] then true else false)
              | _ => false end = true) by (vm_compute; reflexivity).
  destruct (os_fit ex56_ceq ex56_solver ex56_prm (base_bmodel ex56_m) None ex56_X ex56_Y Cold) as [[st []]|]; try discriminate.
  apply andb_prop in C. destruct C as [C C3]. apply andb_prop in C. destruct C as [C1 C2]. exists st.
  split; [reflexivity|]. split; [apply qcs_eqb_eq; exact C1|]. split; [apply qcs_eqb_eq; exact C2|]. destruct (list_eq_dec _ _ _); [assumption|discriminate].
Qed.
Lemma cached_below : exists (X Y : Type) (T : task X Y) (d : nat) (ceq : Y -> Y -> res bool) (solve : qp_solver) (prm : os_params) (bm : bmodel X Y)
    (Xs : list X) (Ys : list Y) (st : os_state Y),
  qp_exact solve /\ batch_exact bm T d Xs Ys /\ sm_rescale (bm_s bm) = false /\ 0 < o_C prm /\
  os_fit ceq solve prm bm None Xs Ys Cold = Ok (st, OSNoConstraint) /\
  exists i, (i < length (o_primal st))%nat /\ nth i (o_cached st) false = true /\ (exists o, In o (o_curve st) /\ nth i (o_primal st) 0 < o) /\
    forall w hs, length w = d -> hinges T w (combine Xs Ys) hs -> nth i (o_primal st) 0 < primal_value (o_C prm) w hs.
Proof.
  destruct ex56_run as [st [R [R1 [R2 R3]]]].
  exists bool, nat, ex56_T, 1%nat, ex56_ceq, ex56_solver, ex56_prm, (base_bmodel ex56_m), ex56_X, ex56_Y, st.
  split; [exact ex56_exact|]. split; [exact ex56_batch|]. split; [reflexivity|]. split; [reflexivity|]. split; [exact R|].
  exists 2%nat. rewrite R1, R2, R3. split; [cbn; lia|]. split; [reflexivity|]. split; [exists (Q2Qc (25 # 18)); split; [cbn; auto|reflexivity]|].
  intros w hs Hw HH.
  assert (QS : qp_sound ex56_solver). { intros p x v E. destruct (ex56_exact p x v E) as [[A _] B]. auto. }
  destruct (os_gap ex56_T 1 ex56_ceq ex56_solver ex56_prm ex56_X ex56_Y ltac:(cbn; lia) ltac:(discriminate) QS (base_bmodel ex56_m) None st OSNoConstraint
    (conj ex56_batch (or_intror eq_refl)) ltac:(discriminate) R) as [_ G].
  specialize (G 4%nat). rewrite R1, R2, R3 in G. destruct (G ltac:(cbn; lia) eq_refl) as [v [hv [Hv [HH2 [EV GG]]]]].
  destruct (GG (Q2Qc (25 # 18)) ltac:(cbn; auto)) as [_ GW]. specialize (GW w hs Hw HH). rewrite <- EV in GW.
  change (nth 4 ex56_primal 0) with (Q2Qc (25 # 18)) in GW. change (nth 2 ex56_primal 0) with (Q2Qc (33 # 25)).
  set (u := primal_value (o_C ex56_prm) w hs) in *. clearbody u. replace (u + (Q2Qc (25 # 18) - Q2Qc (25 # 18))) with u in GW by ring.
  eapply Qclt_le_trans; [|exact GW]. reflexivity.
Qed.
