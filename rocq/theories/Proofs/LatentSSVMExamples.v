(** A run of LatentSSVM: two nodes joined by an edge, label 0 with two states, label 1 with one. *)
From Coq Require Import ZArith.
From Verif Require Import Model.LatentSSVM Model.ChainCRF Spec.SolverSpec Spec.GraphSpec Proofs.Arrays Proofs.GraphCRFProofs Proofs.LossProofs Proofs.ChainProofs Proofs.LearnerProofs
  Proofs.LatentProofs Proofs.LatentProofs3 Proofs.LatentProofs4 Proofs.LatentProofs5 Proofs.LatentSSVMProofs Proofs.LatentSSVMProofs2 Proofs.LatentSSVMProofs3 Spec.LatentSSVMSpec.

(** minimises P t^2 / 2 + q t over 0 <= t <= C *)
Definition ex16_solver : qp_solver := fun p =>
  match p with
  | QP (Mat 1 1 [[P]]) [q] (Mat 2 1 [[g0]; [g1]]) [h0; h1] (Mat 0 1 []) [] =>
      if Qcltb 0 P && Qceqb g0 (- (1)) && Qceqb g1 1 && Qceqb h0 0 && Qcleb 0 h1
      then let t := Qcmax 0 (Qcmin (- q / P) h1) in Some ([t], t * (P * t) / (1 + 1) + q * t) else None
  | _ => None
  end.
Definition ex16_x : graph_x := GraphX (Mat 2 1 [[1]; [ofN 3]]) [(0, 1)]%nat.
Definition ex16_prm := NSParams (Q2Qc (1 # 100)) 10 (Q2Qc (1 # 1000)) true false None (-1) (Q2Qc (1 # 1000)) 5.
Definition ex16_Xs := [ex16_x].
Definition ex16_Ys := [[0; 0]%nat].
Definition ex16_init := [[0; 1]%nat].
Definition ex16_m : lmodel graph_x (list nat) := lg_lmodel max_product_solver ex14_cluster ex14_g.
Definition ex16_base := nslack_base nats_eqb ex16_solver ex16_prm (lm_s ex16_m).
Definition ex16_run := cccp_fit labels_differ ex16_m ex16_base ex16_Xs ex16_Ys 5 (Some ex16_init).

Lemma Qcmin_cases a b : (Qcmin a b = a /\ a <= b) \/ (Qcmin a b = b /\ b <= a).
Proof. unfold Qcmin. destruct (Qcleb_spec a b) as [H|H]; [left|right]; split; auto. apply Qclt_le_weak. exact H. Qed.
Lemma Qcmax_cases a b : (Qcmax a b = b /\ a <= b) \/ (Qcmax a b = a /\ b <= a).
Proof. unfold Qcmax. destruct (Qcleb_spec a b) as [H|H]; [left|right]; split; auto. apply Qclt_le_weak. exact H. Qed.
Lemma prod_nonneg a b : (0 <= a /\ 0 <= b) \/ (a <= 0 /\ b <= 0) -> 0 <= a * b.
Proof.
  intros [[A B]|[A B]]; [apply Qcmult_nonneg; assumption|]. replace (a * b) with ((- a) * (- b)) by ring. apply Qcmult_nonneg; qclra.
Qed.
Lemma ex16_exact : qp_exact ex16_solver.
Proof.
  intros p x v H. unfold ex16_solver in H.
  repeat match type of H with
         | (match andb _ _ with _ => _ end) = _ => fail 1
         | (match ?b with _ => _ end) = _ => destruct b; try discriminate H
         end.
  match type of H with context [Qcltb 0 ?u] => destruct (Qcltb_spec 0 u) as [HP|]; [|discriminate H] end.
  repeat match type of H with context [Qceqb ?u ?w] => destruct (Qceqb_spec u w) as [->|]; [|rewrite ?andb_false_r in H; discriminate H] end.
  match type of H with context [Qcleb 0 ?u] => destruct (Qcleb_spec 0 u) as [HC|]; [|rewrite ?andb_false_r in H; discriminate H] end.
  cbn [andb] in H. cbv zeta in H.
  match type of HP with 0 < ?u => rename u into P end. match type of HC with 0 <= ?u => rename u into C end.
  match type of H with context [- ?u / P] => rename u into q end.
  assert (NZ : P <> 0) by (intro Z; rewrite Z in HP; discriminate HP).
  set (t := Qcmax 0 (Qcmin (- q / P) C)) in *.
  (* optimality conditions *)
  assert (K : 0 <= t /\ t <= C /\ forall z, 0 <= z -> z <= C -> 0 <= (z - t) * (P * t + q)).
  { unfold t. destruct (Qcmin_cases (- q / P) C) as [[-> H1]|[-> H1]].
    - destruct (Qcmax_cases 0 (- q / P)) as [[-> H2]|[-> H2]].
      + split; [exact H2|]. split; [exact H1|]. intros z _ _. replace (P * (- q / P) + q) with 0 by (field; exact NZ). rewrite Qcmult_0_r. apply Qcle_refl.
      + split; [apply Qcle_refl|]. split; [exact HC|]. intros z Z1 _. apply prod_nonneg. left. split; [qclra|].
        replace (P * 0 + q) with (P * (- (- q / P))) by (field; exact NZ). apply Qcmult_nonneg; [apply Qclt_le_weak; exact HP|]. set (r := - q / P) in *. clearbody r. qclra.
    - destruct (Qcmax_cases 0 C) as [[-> H2]|[-> H2]].
      + split; [exact HC|]. split; [apply Qcle_refl|]. intros z _ Z2. apply prod_nonneg. right. split; [qclra|].
        replace (P * C + q) with (- (P * (- q / P - C))) by (field; exact NZ).
        assert (Q0 : 0 <= P * (- q / P - C)). { apply Qcmult_nonneg; [apply Qclt_le_weak; exact HP|]. set (r := - q / P) in *. clearbody r. qclra. }
        set (r := P * (- q / P - C)) in *. clearbody r. qclra.
      + assert (C = 0) by (apply Qcle_antisym; assumption). subst C. split; [apply Qcle_refl|]. split; [apply Qcle_refl|]. intros z Z1 Z2.
        assert (z = 0) by (apply Qcle_antisym; assumption). subst z. replace ((0 - 0) * (P * 0 + q)) with 0 by ring. apply Qcle_refl. }
  clearbody t. destruct K as [K1 [K2 K3]].
  assert (x = [t] /\ v = t * (P * t) / (1 + 1) + q * t) as [-> ->] by (split; congruence). split; [split|].
  - split; [reflexivity|]. split; cbn [mrows mdat qp_G qp_A qp_h qp_b]; intros r Hr; [|lia].
    destruct r as [|[|r]]; [| |lia]; unfold get1; cbn [nth]; rewrite dot_cons; unfold dot; cbn [zipw lsum]; match goal with |- ?a <= _ => first [replace a with (- t) by ring | replace a with t by ring] end; qclra.
  - intros z [Lz [Fz _]]. cbn in Lz. destruct z as [|z [|? ?]]; try discriminate.
    cbn [mrows mdat qp_G qp_A qp_h qp_b] in Fz.
    assert (F0 := Fz O ltac:(lia)). assert (F1 := Fz 1%nat ltac:(lia)). unfold get1 in F0, F1. cbn [nth] in F0, F1. rewrite dot_cons in F0, F1. unfold dot in F0, F1. cbn [zipw lsum] in F0, F1.
    match type of F0 with ?a <= _ => replace a with (- z) in F0 by ring end. match type of F1 with ?a <= _ => replace a with z in F1 by ring end.
    assert (K := K3 z ltac:(qclra) ltac:(qclra)).
    unfold qp_value. cbn [qp_P qp_q mdat map]. rewrite !dot_cons. unfold dot; cbn [zipw lsum].
    assert (S0 := Qc_sq_nonneg (z - t)). assert (S1 := Qcmult_nonneg _ _ (Qclt_le_weak _ _ HP) S0).
    assert (TW : 1 + 1 <> 0) by discriminate.
    match goal with |- ?a <= ?b => replace b with (a + ((z - t) * (P * t + q) + P * ((z - t) * (z - t)) / (1 + 1))) by (field; exact TW) end.
    assert (S2 : 0 <= P * ((z - t) * (z - t)) / (1 + 1)). { unfold Qcdiv. apply Qcmult_nonneg; [exact S1|discriminate]. }
    set (u := (z - t) * (P * t + q)) in *. set (u2 := P * ((z - t) * (z - t)) / (1 + 1)) in *. clearbody u u2.
    match goal with |- ?a <= ?a + _ => set (k := a); clearbody k end. qclra.
  - unfold qp_value. cbn [qp_P qp_q mdat map]. rewrite !dot_cons. unfold dot; cbn [zipw lsum]. field. discriminate.
Qed.
Definition ex16_w1 : list Qc := map Q2Qc [1#100; 3#100; -1#25; 0; 1#100; 0; 0; 0; -1#100]%Q.
Definition ex16_w2 : list Qc := map Q2Qc [0; 1#25; -1#25; 0; 0; 1#100; 0; 0; -1#100]%Q.
Lemma ex16_trace : exists b1 b2, ex16_run = Ok (ex16_init, [(ex16_init, b1); ([[1; 1]%nat], b2)], NoChange) /\
  bl_w ex16_base b1 = ex16_w1 /\ bl_w ex16_base b2 = ex16_w2 /\ snd b1 = NoNewConstraint /\ snd b2 = NoNewConstraint.
Proof.
  assert (K : match ex16_run with
              | Ok (H, [(H1, b1); (H2, b2)], NoChange) => H = ex16_init /\ H1 = ex16_init /\ H2 = [[1; 1]%nat] /\ map this (bl_w ex16_base b1) = map this ex16_w1 /\
                  map this (bl_w ex16_base b2) = map this ex16_w2 /\ snd b1 = NoNewConstraint /\ snd b2 = NoNewConstraint
              | _ => False end) by (vm_compute; repeat split; reflexivity).
  destruct ex16_run as [[[H [|[H1 b1] [|[H2 b2] [|? ?]]]] [|]]|]; try (exfalso; exact K).
  destruct K as [-> [-> [-> [K1 [K2 [K3 K4]]]]]]. exists b1, b2. split; [reflexivity|].
  assert (INJ : forall a b : list Qc, map this a = map this b -> a = b).
  { induction a as [|u a IH]; intros [|v b] Q; try discriminate; [reflexivity|]. cbn [map] in Q. injection Q as Q1 Q2. f_equal; [|exact (IH b Q2)]. apply Qc_is_canon. rewrite Q1. reflexivity. }
  auto.
Qed.
Definition ex16_sample : graph_x * list nat -> Prop := fun p => mat_ok (gx_features (fst p)) /\ mcols (gx_features (fst p)) = 1%nat /\
  graph_edges (mrows (gx_features (fst p))) (gx_edges (fst p)) /\ (0 < mrows (gx_features (fst p)))%nat /\
  Energy.labelling (mrows (gx_features (fst p))) 2 (snd p) /\ exact_solver_on max_product_solver (mrows (gx_features (fst p))) (gx_edges (fst p)).
Lemma ex16_valid : Forall ex16_sample (combine ex16_Xs ex16_Ys).
Proof.
  constructor; [|constructor]. unfold ex16_sample. cbn [fst snd ex16_x gx_features gx_edges mrows mcols].
  split; [split; [reflexivity|repeat constructor]|]. split; [reflexivity|]. split; [repeat constructor|]. split; [lia|]. split; [split; [reflexivity|repeat constructor]|].
  exact (max_product_exact_on_chain 2 ltac:(lia)).
Qed.
Lemma ex16_completes : completes (lg_E ex14_g) ex16_Xs ex16_Ys ex16_init.
Proof.
  constructor; [|constructor]. unfold lg_E. cbn [fst snd]. repeat constructor; cbn; lia.
Qed.
Ltac small_cases := repeat match goal with
  | H : (?i < 2)%nat |- _ => destruct i as [|[|i]]; [| |exfalso; lia]; clear H
  | H : (?i < 3)%nat |- _ => destruct i as [|[|[|i]]]; [| | |exfalso; lia]; clear H end.
Lemma ex16_exact_at w : w = ex16_w1 \/ w = ex16_w2 -> forall p, In p (combine ex16_Xs ex16_Ys) -> exact_latent ex16_m (lg_task ex14_g) (lg_E ex14_g) w (fst p) (snd p).
Proof.
  intros HW p [<-|[]]. destruct (setup_laid_out _ _ _ _ ex14_setup) as [HG _].
  assert (V : valid_x (lg_graph ex14_g) ex16_x).
  { apply Build_valid_x; [split; [reflexivity|repeat constructor]|reflexivity|repeat constructor]. }
  assert (Q : exists U P, g_potentials (lg_graph ex14_g) ex16_x w = Ok (U, P) /\
    (forall i s, (i < 2)%nat -> (s < 3)%nat -> - (1) <= mget U i s /\ mget U i s <= 1) /\ (forall s t, (s < 3)%nat -> (t < 3)%nat -> - (1) <= mget P s t /\ mget P s t <= 1)).
  { destruct HW as [->| ->].
    - assert (R : match g_potentials (lg_graph ex14_g) ex16_x ex16_w1 with Ok (U, P) =>
        forallb (fun i => forallb (fun s => Qcleb (- (1)) (mget U i s) && Qcleb (mget U i s) 1) (seq 0 3)) (seq 0 2) &&
        forallb (fun i => forallb (fun s => Qcleb (- (1)) (mget P i s) && Qcleb (mget P i s) 1) (seq 0 3)) (seq 0 3) = true | Err _ => False end) by (vm_compute; reflexivity).
      destruct (g_potentials (lg_graph ex14_g) ex16_x ex16_w1) as [[U P]|]; [|destruct R]. exists U, P. split; [reflexivity|].
      apply andb_prop in R. destruct R as [R1 R2]. rewrite forallb_forall in R1, R2.
      split; intros i s Hi Hs; [specialize (R1 i ltac:(apply in_seq; lia)); rewrite forallb_forall in R1; specialize (R1 s ltac:(apply in_seq; lia)); apply andb_prop in R1; destruct R1 as [R3 R4]
        |specialize (R2 i ltac:(apply in_seq; lia)); rewrite forallb_forall in R2; specialize (R2 s ltac:(apply in_seq; lia)); apply andb_prop in R2; destruct R2 as [R3 R4]];
      (split; [match type of R3 with Qcleb ?a ?b = true => destruct (Qcleb_spec a b) as [K|K]; [exact K|discriminate R3] end|match type of R4 with Qcleb ?a ?b = true => destruct (Qcleb_spec a b) as [K|K]; [exact K|discriminate R4] end]).
    - assert (R : match g_potentials (lg_graph ex14_g) ex16_x ex16_w2 with Ok (U, P) =>
        forallb (fun i => forallb (fun s => Qcleb (- (1)) (mget U i s) && Qcleb (mget U i s) 1) (seq 0 3)) (seq 0 2) &&
        forallb (fun i => forallb (fun s => Qcleb (- (1)) (mget P i s) && Qcleb (mget P i s) 1) (seq 0 3)) (seq 0 3) = true | Err _ => False end) by (vm_compute; reflexivity).
      destruct (g_potentials (lg_graph ex14_g) ex16_x ex16_w2) as [[U P]|]; [|destruct R]. exists U, P. split; [reflexivity|].
      apply andb_prop in R. destruct R as [R1 R2]. rewrite forallb_forall in R1, R2.
      split; intros i s Hi Hs; [specialize (R1 i ltac:(apply in_seq; lia)); rewrite forallb_forall in R1; specialize (R1 s ltac:(apply in_seq; lia)); apply andb_prop in R1; destruct R1 as [R3 R4]
        |specialize (R2 i ltac:(apply in_seq; lia)); rewrite forallb_forall in R2; specialize (R2 s ltac:(apply in_seq; lia)); apply andb_prop in R2; destruct R2 as [R3 R4]];
      (split; [match type of R3 with Qcleb ?a ?b = true => destruct (Qcleb_spec a b) as [K|K]; [exact K|discriminate R3] end|match type of R4 with Qcleb ?a ?b = true => destruct (Qcleb_spec a b) as [K|K]; [exact K|discriminate R4] end]). }
  destruct Q as [U [P [R [HU HP]]]].
  refine (proj1 (proj2 (lg_latent_exact ex14_g max_product_solver ex14_cluster ex16_x [0; 0]%nat w U P 1 1 HG (max_product_exact_on_chain 2 ltac:(lia)) V _ _ _ _ R _ _ _))).
  - destruct HW as [->| ->]; reflexivity.
  - cbn. lia.
  - split; [reflexivity|repeat constructor].
  - repeat constructor.
  - exact HU.
  - exact HP.
  - vm_compute. reflexivity.
Qed.
