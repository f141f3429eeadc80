(** A run of the n-slack learner whose primal curve goes below the optimum. *)
From Coq Require Import ZArith.
From Verif Require Import Model.NSlack Spec.NSlackSpec Proofs.Arrays Proofs.LossProofs Proofs.LearnerProofs Proofs.QPProofs Proofs.Settle3.

Definition ex54_feat (y : nat) : Qc := match y with O => 1 | 1%nat => 0 | _ => / (1 + 1) end.
Definition ex54_loss (_ z : nat) : Qc := match z with O => 0 | 1%nat => Q2Qc (9 # 8) | _ => 1 end.
Definition ex54_T : task unit nat := Task (fun _ y => (y < 3)%nat) (fun _ y => [ex54_feat y]) ex54_loss.
Definition ex54_m : smodel unit nat :=
  SModel 1 false (fun _ y _ => Ok [ex54_feat y]) (fun _ w => Ok (best3 (fun y => dot w [ex54_feat y])))
    (fun _ y w => Ok (best3 (fun z => dot w [ex54_feat z] + ex54_loss y z))) (fun _ => false) (fun y z => Ok (ex54_loss y z)) (fun _ _ => Err AttributeError).
Definition ex54_prm := NSParams 1 10 (Q2Qc (1 # 1000)) true false None (-1) (Q2Qc (1 # 100000)) 50.
(** the two programs of the run: a^2/2 - 9a/8, and (a + b/2)^2/2 - 9a/8 - b *)
Definition ex54_p1 : qp := QP (Mat 1 1 [[1]]) [- Q2Qc (9 # 8)] (Mat 2 1 [[- (1)]; [1]]) [0; 1] (Mat 0 1 []) [].
Definition ex54_p2 : qp := QP (Mat 2 2 [[1; Q2Qc (1 # 2)]; [Q2Qc (1 # 2); Q2Qc (1 # 4)]]) [- Q2Qc (9 # 8); - (1)]
  (Mat 3 2 [[- (1); 0]; [0; - (1)]; [1; 1]]) [0; 0; 1] (Mat 0 2 []) [].
Definition ex54_solver : qp_solver := fun p =>
  match p with
  | QP (Mat 1 1 [[P]]) [q] (Mat 2 1 [[g0]; [g1]]) [h0; h1] (Mat 0 1 []) [] =>
      if Qceqb P 1 && Qceqb q (- Q2Qc (9 # 8)) && Qceqb g0 (- (1)) && Qceqb g1 1 && Qceqb h0 0 && Qceqb h1 1
      then Some ([1], - Q2Qc (5 # 8)) else None
  | QP (Mat 2 2 [[P0; P1]; [P2; P3]]) [q0; q1] (Mat 3 2 [[g0; g1]; [g2; g3]; [g4; g5]]) [h0; h1; h2] (Mat 0 2 []) [] =>
      if Qceqb P0 1 && Qceqb P1 (Q2Qc (1 # 2)) && Qceqb P2 (Q2Qc (1 # 2)) && Qceqb P3 (Q2Qc (1 # 4)) && Qceqb q0 (- Q2Qc (9 # 8)) && Qceqb q1 (- (1)) &&
         Qceqb g0 (- (1)) && Qceqb g1 0 && Qceqb g2 0 && Qceqb g3 (- (1)) && Qceqb g4 1 && Qceqb g5 1 && Qceqb h0 0 && Qceqb h1 0 && Qceqb h2 1
      then Some ([0; 1], - Q2Qc (7 # 8)) else None
  | _ => None
  end.
Lemma ex54_opt1 : qp_optimal ex54_p1 [1] /\ - Q2Qc (5 # 8) = qp_value ex54_p1 [1].
Proof.
  split; [split|].
  - split; [reflexivity|]. split; cbn [mrows mdat qp_G qp_A qp_h ex54_p1]; intros r Hr; [|lia]. destruct r as [|[|r]]; [discriminate|discriminate|lia].
  - intros z [Lz [Gz _]]. cbn in Lz. destruct z as [|t [|? ?]]; try discriminate.
    assert (G1 := Gz 1%nat ltac:(cbn; lia)). cbn [mdat qp_G qp_h ex54_p1 nth] in G1. change (get1 [0; 1] 1) with 1 in G1. unfold dot in G1. cbn [zipw lsum] in G1.
    assert (G2 : t <= 1) by (replace t with (1 * t + 0) by ring; exact G1). clear Gz G1.
    unfold qp_value. cbn [qp_P qp_q mdat map ex54_p1]. unfold dot. cbn [map zipw lsum].
    assert (S := half_square (t - 1)). assert (M : 0 <= (1 - t) * Q2Qc (1 # 8)). { apply Qcmult_nonneg; [qclra|vm_compute; discriminate]. }
    match goal with |- ?a <= ?b => replace b with (a + (t - 1) * (t - 1) / (1 + 1) + (1 - t) * Q2Qc (1 # 8)) end.
    + set (u := (t - 1) * (t - 1) / (1 + 1)) in *. set (u2 := (1 - t) * Q2Qc (1 # 8)) in *. clearbody u u2.
      match goal with |- ?a <= ?a + u + u2 => set (k := a); clearbody k end. qclra.
    + replace (Q2Qc (9 # 8)) with (1 + Q2Qc (1 # 8)) by (apply Qc_is_canon; vm_compute; reflexivity). set (e := Q2Qc (1 # 8)). clearbody e. field. discriminate.
  - apply Qc_is_canon. vm_compute. reflexivity.
Qed.
Lemma ex54_opt2 : qp_optimal ex54_p2 [0; 1] /\ - Q2Qc (7 # 8) = qp_value ex54_p2 [0; 1].
Proof.
  split; [split|].
  - split; [reflexivity|]. split; cbn [mrows mdat qp_G qp_A qp_h ex54_p2]; intros r Hr; [|lia]. destruct r as [|[|[|r]]]; [discriminate|discriminate|discriminate|lia].
  - intros z [Lz [Gz _]]. cbn in Lz. destruct z as [|t [|s [|? ?]]]; try discriminate.
    assert (G0 := Gz 0%nat ltac:(cbn; lia)). assert (G1 := Gz 2%nat ltac:(cbn; lia)). cbn [mdat qp_G qp_h ex54_p2 nth] in G0, G1. change (get1 [0; 0; 1] 2) with 1 in G1. change (get1 [0; 0; 1] 0) with 0 in G0.
    unfold dot in G0, G1. cbn [zipw lsum] in G0, G1.
    assert (H0 : 0 <= t). { replace (- (1) * t + (0 * s + 0)) with (- t) in G0 by ring. qclra. }
    assert (H1 : t + s <= 1). { replace (1 * t + (1 * s + 0)) with (t + s) in G1 by ring. exact G1. } clear Gz G0 G1.
    unfold qp_value. cbn [qp_P qp_q mdat map ex54_p2]. unfold dot. cbn [map zipw lsum].
    set (e := Q2Qc (1 # 8)). assert (E9 : Q2Qc (9 # 8) = 1 + e) by (apply Qc_is_canon; vm_compute; reflexivity).
    assert (E2 : Q2Qc (1 # 2) = e + e + e + e) by (apply Qc_is_canon; vm_compute; reflexivity).
    assert (E4 : Q2Qc (1 # 4) = e + e) by (apply Qc_is_canon; vm_compute; reflexivity).
    assert (EE : e * (1 + 1) * (1 + 1) * (1 + 1) = 1) by (apply Qc_is_canon; vm_compute; reflexivity).
    assert (EI : / (1 + 1) = e + e + e + e) by (apply Qc_is_canon; vm_compute; reflexivity).
    assert (S := Qc_sq_nonneg (t + (e + e + e + e) * s - (e + e + e + e))).
    assert (M1 : 0 <= (1 - t - s) * (1 - (e + e))). { apply Qcmult_nonneg; [qclra|vm_compute; discriminate]. }
    assert (M2 : 0 <= t * e). { apply Qcmult_nonneg; [exact H0|vm_compute; discriminate]. }
    rewrite E9, E2, E4. unfold Qcdiv. rewrite !EI.
    assert (S2 : 0 <= (t + (e + e + e + e) * s - (e + e + e + e)) * (t + (e + e + e + e) * s - (e + e + e + e)) * (e + e + e + e)). { apply Qcmult_nonneg; [exact S|vm_compute; discriminate]. }
    assert (EQ2 : (e + e + e + e) * (e + e + e + e) = e + e) by (apply Qc_is_canon; vm_compute; reflexivity).
    assert (EQ3 : (e + e + e + e) * (e + e) = e) by (apply Qc_is_canon; vm_compute; reflexivity).
    assert (EQ1 : (e + e + e + e) + (e + e + e + e) = 1) by (apply Qc_is_canon; vm_compute; reflexivity).
    clear S EE EI E9 E2 E4 H0 H1 Lz. 
    match goal with |- ?a <= ?b => assert (K : b = a + (t + (e + e + e + e) * s - (e + e + e + e)) * (t + (e + e + e + e) * s - (e + e + e + e)) * (e + e + e + e)
       + (1 - t - s) * (1 - (e + e)) + t * e) end.
    { assert (EV : e = Q2Qc (1 # 8)) by reflexivity. clearbody e.
      assert (E8 : e + e + e + e + (e + e + e + e) = 1) by (rewrite <- EQ1; ring). 
      assert (e = / (1 + 1) / (1 + 1) / (1 + 1)). { rewrite EV. apply Qc_is_canon. vm_compute. reflexivity. }
      rewrite H. field. discriminate. }
    rewrite K. clear K. 
    match goal with |- ?a <= ?a + ?x + ?y + ?z => set (k := a); set (k1 := x) in *; set (k2 := y) in *; set (k3 := z) in * end. clearbody k k1 k2 k3. clear - S2 M1 M2. qclra.
  - apply Qc_is_canon. vm_compute. reflexivity.
Qed.
Lemma ex54_exact_qp : qp_exact ex54_solver.
Proof.
  intros p x v H. unfold ex54_solver in H.
  repeat match type of H with
         | (match andb _ _ with _ => _ end) = _ => fail 1
         | (match ?b with _ => _ end) = _ => destruct b; try discriminate H
         end;
  repeat match type of H with context [Qceqb ?u ?w] => destruct (Qceqb_spec u w) as [->|]; [|rewrite ?andb_false_r in H; discriminate H] end;
  cbn [andb] in H; injection H as <- <-; [exact ex54_opt1|exact ex54_opt2].
Qed.
Lemma ex54_oracle : oracle_exact ex54_m ex54_T 1 (combine [tt] [0%nat]).
Proof.
  intros p [<-|[]]. cbn [fst snd]. split.
  - split; [cbn; lia|]. split; [reflexivity|]. intros y' Hy. cbn. repeat split.
  - intros w Hw. exists (best3 (fun z => dot w [ex54_feat z] + ex54_loss 0 z)). split; [reflexivity|].
    split; [apply (best3_best (fun z => dot w [ex54_feat z] + ex54_loss 0 z) 0%nat); lia|].
    intros y' Hy. exact (proj1 (best3_best (fun z => dot w [ex54_feat z] + ex54_loss 0 z) y' Hy)).
Qed.
Lemma ex54_bound w hs : length w = 1%nat -> hinges ex54_T w (combine [tt] [0%nat]) hs -> Q2Qc (7 # 8) <= primal_value 1 w hs.
Proof.
  intros Hw H. destruct w as [|a [|]]; try discriminate. unfold hinges in H. cbn [combine] in H. inversion H as [|p v r hs' H1 H2]; subst. inversion H2; subst.
  destruct H1 as [_ B]. specialize (B 2%nat ltac:(cbn; lia)). unfold margin in B. cbn [t_loss t_feat ex54_T fst snd ex54_loss ex54_feat] in B. unfold dot in B. cbn [zipw lsum] in B.
  unfold primal_value, normsq, dot. cbn [zipw lsum]. assert (S := half_square (a - / (1 + 1))).
  replace (1 * (v + 0) + (a * a + 0) / (1 + 1)) with (v - (1 - (a * 1 + 0 - (a * / (1 + 1) + 0))) + Q2Qc (7 # 8) + (a - / (1 + 1)) * (a - / (1 + 1)) / (1 + 1)).
  - set (u := (a - / (1 + 1)) * (a - / (1 + 1)) / (1 + 1)) in *. set (u2 := 1 - (a * 1 + 0 - (a * / (1 + 1) + 0))) in *. clearbody u u2. qclra.
  - replace (Q2Qc (7 # 8)) with (1 - / (1 + 1) / (1 + 1) / (1 + 1)) by (apply Qc_is_canon; vm_compute; reflexivity). field. discriminate.
Qed.
Definition qcs_eqb (l r : list Qc) : bool := (length l =? length r)%nat && forallb (fun p => Qceqb (fst p) (snd p)) (combine l r).
Lemma qcs_eqb_eq l : forall r, qcs_eqb l r = true -> l = r.
Proof.
  induction l as [|a l IH]; intros [|b r] H; try reflexivity; try discriminate. unfold qcs_eqb in H. cbn [length combine forallb fst snd Nat.eqb] in H.
  destruct (Qceqb_spec a b) as [->|]; [|rewrite andb_false_r in H; discriminate]. f_equal. apply IH. exact H.
Qed.
Definition ex54_primal : list Qc := [Q2Qc (13 # 8); Q2Qc (5 # 8); Q2Qc (7 # 8); Q2Qc (7 # 8)].
Definition ex54_curve : list Qc := [Q2Qc (5 # 8); Q2Qc (7 # 8); Q2Qc (7 # 8); Q2Qc (7 # 8)].
Lemma ex54_run : exists st, ns_fit Nat.eqb ex54_solver ex54_prm ex54_m None [tt] [0%nat] None None = Ok (st, ex54_curve, ex54_primal, NoNewConstraint) /\ st_w st = [Q2Qc (1 # 2)].
Proof.
  assert (C : match ns_fit Nat.eqb ex54_solver ex54_prm ex54_m None [tt] [0%nat] None None with
              | Ok (st, c, p, NoNewConstraint) => qcs_eqb c ex54_curve && qcs_eqb p ex54_primal && qcs_eqb (st_w st) [Q2Qc (1 # 2)] | _ => false end = true) by (vm_compute; reflexivity).
  destruct (ns_fit Nat.eqb ex54_solver ex54_prm ex54_m None [tt] [0%nat] None None) as [[[[st c] p] []]|]; try discriminate.
  apply andb_prop in C. destruct C as [C C3]. apply andb_prop in C. destruct C as [C1 C2]. exists st.
  rewrite (qcs_eqb_eq _ _ C1), (qcs_eqb_eq _ _ C2), (qcs_eqb_eq _ _ C3). auto.
Qed.
Lemma primal_below : exists (X Y : Type) (T : task X Y) (d : nat) (yeq : Y -> Y -> bool) (solve : qp_solver) (prm : ns_params) (m : smodel X Y)
    (Xs : list X) (Ys : list Y) (st : ns_state Y) (curve primal : list Qc),
  qp_exact solve /\ oracle_exact m T d (combine Xs Ys) /\ sm_size m = d /\ 0 < ns_C prm /\
  batch_slices (ns_batch prm) (length Xs) = Ok [(O, length Xs)] /\
  ns_fit yeq solve prm m None Xs Ys None None = Ok (st, curve, primal, NoNewConstraint) /\
  exists i, (i < length primal)%nat /\ nth i primal 0 < nth i curve 0 /\
    forall w hs, length w = d -> hinges T w (combine Xs Ys) hs -> nth i primal 0 < primal_value (ns_C prm) w hs.
Proof.
  destruct ex54_run as [st [R _]]. exists unit, nat, ex54_T, 1%nat, Nat.eqb, ex54_solver, ex54_prm, ex54_m, [tt], [0%nat], st, ex54_curve, ex54_primal.
  split; [exact ex54_exact_qp|]. split; [exact ex54_oracle|]. split; [reflexivity|]. split; [reflexivity|]. split; [reflexivity|]. split; [exact R|].
  exists 1%nat. split; [cbn; lia|]. split; [reflexivity|]. intros w hs Hw HH. eapply Qclt_le_trans; [|apply (ex54_bound w hs Hw HH)]. reflexivity.
Qed.
