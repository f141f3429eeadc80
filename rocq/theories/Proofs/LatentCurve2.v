(** A run of the latent subgradient learner whose curve falls below every value of the latent
    objective: one node, label 0 with two states, label 1 with one, the same picture once with
    each label. *)
From Coq Require Import ZArith.
From Verif Require Import Model.LatentGraph Model.LatentLearner Model.SubgradientLatent Model.ChainCRF Spec.GraphSpec Spec.SolverSpec
  Proofs.Arrays Proofs.EnergyProofs Proofs.GraphCRFProofs Proofs.LossProofs Proofs.CRFProofs Proofs.ChainProofs Proofs.LearnerProofs
  Proofs.LatentProofs Proofs.LatentProofs2 Proofs.LatentProofs3 Proofs.LatentProofs4 Proofs.LatentProofs5 Proofs.LatentCurve Proofs.PrimalCurve3 Spec.SubgradientSpec Spec.LatentCurveSpec.

Definition ex55_m : lmodel graph_x (list nat) := lg_lmodel max_product_solver ex14_cluster ex14_g.
Definition ex55_S : list (graph_x * list nat) := [(ex14_x, [0%nat]); (ex14_x, [1%nat])].
Definition ex55_w0 : list Qc := [ofN 2; 0; - ofN 2; 0; 0; 0; 0; 0; 0].
Definition ex55_w1 : list Qc := [- ofN 2; 0; ofN 2; 0; 0; 0; 0; 0; 0].
(** C = 10, one pass, learning rate 2 C n without decay *)
Definition ex55_prm : sg_params := SGParams (ofN 10) 1 0 (Some (ofN 40)) 1 1 0 1 None AvgNone false.
Definition ex55_st : sg_state := SGState ex55_w0 ex55_w0 (vzero 9) 0.
Definition ex55_step (p : graph_x * list nat) (st : sg_state) : sg_state * Qc := ok_or (st, 0) (lsg_online_step ex55_prm ex55_m 2 (ofN 40) p st).
Definition ex55_v1 : sg_state * Qc := ex55_step (ex14_x, [0%nat]) ex55_st.
Definition ex55_v2 : sg_state * Qc := ex55_step (ex14_x, [1%nat]) (fst ex55_v1).
Definition ex55_V : list (graph_x * list nat * sg_state * Qc) := [((ex14_x, [0%nat]), fst ex55_v1, snd ex55_v1); ((ex14_x, [1%nat]), fst ex55_v2, snd ex55_v2)].

Lemma ok_or_ok {A} (a : A) r : (match r with Ok _ => true | Err _ => false end) = true -> r = Ok (ok_or a r).
Proof. destruct r; [reflexivity|discriminate]. Qed.
Lemma ex55_visits : lsg_visits ex55_prm ex55_m 2 (ofN 40) ex55_st ex55_V.
Proof.
  unfold ex55_V. cbn [lsg_visits]. rewrite <- !surjective_pairing. split; [|split; [|exact I]].
  - unfold ex55_v1, ex55_step. apply ok_or_ok. vm_compute. reflexivity.
  - unfold ex55_v2, ex55_step. apply ok_or_ok. vm_compute. reflexivity.
Qed.
Lemma ex55_w_1 : sg_w (fst ex55_v1) = ex55_w1.
Proof. apply qcs_eqb_eq. vm_compute. reflexivity. Qed.
Lemma ex55_w_2 : sg_self (fst ex55_v2) = ex55_w0.
Proof. apply qcs_eqb_eq. vm_compute. reflexivity. Qed.
Lemma ex55_exact w y : In w [ex55_w0; ex55_w1] -> In y [[0%nat]; [1%nat]] -> latent_exact ex55_m (lg_task ex14_g) (lg_E ex14_g) 9 w (ex14_x, y).
Proof.
  intros HW HY. destruct (setup_laid_out _ _ _ _ ex14_setup) as [HG _].
  assert (R : exists U, g_potentials (lg_graph ex14_g) ex14_x w = Ok (U, Mat 3 3 [[0;0;0];[0;0;0];[0;0;0]]) /\ (U = Mat 1 3 [[ofN 2; 0; - ofN 2]] \/ U = Mat 1 3 [[- ofN 2; 0; ofN 2]])).
  { destruct HW as [<-|[<-|[]]].
    - exists (Mat 1 3 [[ofN 2; 0; - ofN 2]]). split; [vm_compute; repeat f_equal; apply Qc_is_canon; reflexivity|left; reflexivity].
    - exists (Mat 1 3 [[- ofN 2; 0; ofN 2]]). split; [vm_compute; repeat f_equal; apply Qc_is_canon; reflexivity|right; reflexivity]. }
  destruct R as [U [R RU]].
  refine (lg_latent_exact ex14_g max_product_solver ex14_cluster ex14_x y w _ _ (ofN 2) 0 HG ex14_exact (ex14_valid ex14_g eq_refl) _ _ _ _ R _ _ _).
  - destruct HW as [<-|[<-|[]]]; reflexivity.
  - cbn. lia.
  - destruct HY as [<-|[<-|[]]]; (split; [reflexivity|]; repeat constructor).
  - repeat constructor.
  - intros i s Hi Hs. cbn in Hi. assert (i = O) by lia. subst i. unfold lg_states in Hs. cbn in Hs.
    destruct RU as [->| ->]; (destruct s as [|[|[|s]]]; [| | |lia]; (split; vm_compute; discriminate)).
  - intros s t Hs Ht. unfold lg_states in Hs, Ht. cbn in Hs, Ht.
    destruct s as [|[|[|s]]]; [| | |lia]; (destruct t as [|[|[|t]]]; [| | |lia]; (split; vm_compute; discriminate)).
  - vm_compute. reflexivity.
Qed.
(** The two samples contradict each other: no weights have an objective below 2 C. *)
Lemma ex55_bound C w vs : 0 <= C -> latent_hinges (lg_task ex14_g) (lg_E ex14_g) w ex55_S vs -> C * (1 + 1) <= primal_value C w vs.
Proof.
  intros HC H. unfold ex55_S in H. inversion H as [|p0 v1 l0 vs1 [h1 [[A1 _] [_ A2]]] B]; subst p0 l0 vs. inversion B as [|p0 v2 l0 vs2 [h2 [[B1 _] [_ B2]]] D]; subst p0 l0 vs1. inversion D; subst vs2.
  cbn [fst snd] in *. assert (H1 : h1 = [0%nat] \/ h1 = [1%nat]).
  { inversion A1 as [|s l h y Q1 Q2]; subst. inversion Q2; subst. destruct Q1 as [_ Q1]. unfold offset in Q1. cbn in Q1. destruct s as [|[|s]]; [auto|auto|lia]. }
  assert (H2 : h2 = [2%nat]).
  { inversion B1 as [|s l h y Q1 Q2]; subst. inversion Q2; subst. destruct Q1 as [_ Q1]. unfold offset in Q1. cbn in Q1. f_equal. lia. }
  subst h2. clear H B D A1 B1.
  assert (L1 : t_label (lg_task ex14_g) ex14_x h1) by (destruct H1 as [->| ->]; (split; [reflexivity|]; repeat constructor)).
  specialize (A2 [2%nat] ltac:(split; [reflexivity|]; repeat constructor)). specialize (B2 h1 L1). unfold margin in A2, B2.
  assert (E1 : t_loss (lg_task ex14_g) h1 [2%nat] = 1) by (destruct H1 as [->| ->]; apply Qc_is_canon; vm_compute; reflexivity).
  assert (E2 : t_loss (lg_task ex14_g) [2%nat] h1 = 1) by (destruct H1 as [->| ->]; apply Qc_is_canon; vm_compute; reflexivity).
  rewrite E1 in A2. rewrite E2 in B2. unfold primal_value. cbn [lsum]. assert (N := normsq_nonneg w).
  assert (N2 : 0 <= normsq w / (1 + 1)) by (unfold Qcdiv; apply Qcmult_nonneg; [exact N|discriminate]).
  set (a := dot w (t_feat (lg_task ex14_g) ex14_x h1)) in *. set (b := dot w (t_feat (lg_task ex14_g) ex14_x [2%nat])) in *. clearbody a b.
  assert (Q : (1 + 1) * C <= (v1 + (v2 + 0)) * C) by (apply Qcmult_le_compat_r; [qclra|exact HC]). rewrite (Qcmult_comm C (1 + 1)), (Qcmult_comm C). 
  set (q1 := (v1 + (v2 + 0)) * C) in *. set (q0 := (1 + 1) * C) in *. set (q2 := normsq w / (1 + 1)) in *. clearbody q0 q1 q2. qclra.
Qed.
Lemma entries_below : exists t w lr o1 o2, lsg_fit ex55_prm ex55_m ex55_w0 false ex55_S sg_new = Ok (SGLearner t (Some (w, lr, [o1; o2]))) /\
  (forall v p, In v (looked_at ex55_st ex55_V) -> In p ex55_S -> latent_exact ex55_m (lg_task ex14_g) (lg_E ex14_g) 9 v p) /\
  forall v vs, latent_hinges (lg_task ex14_g) (lg_E ex14_g) v ex55_S vs -> o1 < primal_value (sg_C ex55_prm) v vs.
Proof.
  assert (R : match lsg_fit ex55_prm ex55_m ex55_w0 false ex55_S sg_new with
              | Ok (SGLearner _ (Some (_, _, [o1; _]))) => Qceqb o1 (ofN 4)
              | _ => false
              end = true) by (vm_compute; reflexivity).
  destruct (lsg_fit ex55_prm ex55_m ex55_w0 false ex55_S sg_new) as [[t [[[w lr] [|o1 [|o2 [|]]]]|]]|]; try discriminate R.
  exists t, w, lr, o1, o2. split; [reflexivity|]. split.
  - intros v p Hv Hp. assert (W : In v [ex55_w0; ex55_w1]).
    { unfold ex55_V in Hv. cbn [looked_at] in Hv. rewrite ex55_w_1 in Hv. exact Hv. }
    destruct Hp as [<-|[<-|[]]]; apply ex55_exact; cbn; auto.
  - intros v vs H. destruct (Qceqb_spec o1 (ofN 4)) as [->|]; [|discriminate R]. apply Qclt_le_trans with (sg_C ex55_prm * (1 + 1)); [vm_compute; reflexivity|].
    apply ex55_bound; [discriminate|exact H].
Qed.
(** C94_pass_gap applies *)
Lemma ex55_gap_met : length (sg_self (pass_end ex55_st ex55_V)) = 9%nat /\
  Forall (fun v => length v = 9%nat /\ normsq (vsub v (sg_self (pass_end ex55_st ex55_V))) <= ofN 6 * ofN 6 /\
                   Forall (latent_exact ex55_m (lg_task ex14_g) (lg_E ex14_g) 9 v) (map (fun v => fst (fst v)) ex55_V)) (looked_at ex55_st ex55_V) /\
  Forall (fun p => forall z h, t_label (lg_task ex14_g) (fst p) z -> lg_E ex14_g (fst p) (snd p) h ->
            normsq (vsub (t_feat (lg_task ex14_g) (fst p) z) (t_feat (lg_task ex14_g) (fst p) h)) <= ofN 2 * ofN 2) (map (fun v => fst (fst v)) ex55_V).
Proof.
  assert (PE : sg_self (pass_end ex55_st ex55_V) = ex55_w0) by exact ex55_w_2. rewrite PE. split; [reflexivity|]. split.
  - unfold ex55_V. cbn [looked_at map fst]. rewrite ex55_w_1.
    assert (X : forall v, In v [ex55_w0; ex55_w1] -> Forall (latent_exact ex55_m (lg_task ex14_g) (lg_E ex14_g) 9 v) [(ex14_x, [0%nat]); (ex14_x, [1%nat])]).
    { intros v Hv. constructor; [|constructor; [|constructor]]; apply ex55_exact; cbn; auto. }
    constructor; [|constructor; [|constructor]]; (split; [reflexivity|split; [vm_compute; discriminate|apply X; cbn; auto]]).
  - assert (K : forall z h, t_label (lg_task ex14_g) ex14_x z -> In h [[0%nat]; [1%nat]; [2%nat]] ->
               normsq (vsub (t_feat (lg_task ex14_g) ex14_x z) (t_feat (lg_task ex14_g) ex14_x h)) <= ofN 2 * ofN 2).
    { intros z h [Z1 Z2] Hh. destruct z as [|s [|]]; try discriminate Z1. assert (HS : (s < 3)%nat) by (inversion Z2; assumption).
      destruct s as [|[|[|s]]]; [| | |lia]; (destruct Hh as [<-|[<-|[<-|[]]]]; vm_compute; discriminate). }
    unfold ex55_V. cbn [map fst snd]. constructor; [|constructor; [|constructor]]; cbn [fst snd]; intros z h Hz Hh; apply K; try exact Hz.
    + inversion Hh as [|s l h0 y Q1 Q2]; subst. inversion Q2; subst. destruct Q1 as [_ Q1]. unfold offset in Q1. cbn in Q1. destruct s as [|[|s]]; [cbn; auto|cbn; auto|lia].
    + inversion Hh as [|s l h0 y Q1 Q2]; subst. inversion Q2; subst. destruct Q1 as [_ Q1]. unfold offset in Q1. cbn in Q1. destruct s as [|[|[|s]]]; [cbn; auto|cbn; auto|cbn; auto|lia].
Qed.
