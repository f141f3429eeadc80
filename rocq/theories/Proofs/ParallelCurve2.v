(** A batch of the parallel mode, worked out. *)
From Coq Require Import ZArith.
From Verif Require Import Model.LatentLearner Model.SubgradientLatent Model.LatentNode Spec.LatentNodeSpec Spec.ParallelCurveSpec Model.ChainCRF Proofs.LatentNodeProofs4 Proofs.LatentCurve2.

Definition ex57_m : lmodel ln_x (list nat) := ln_lmodel max_product_solver ex15_cluster ex15_g2.
Definition ex57_T : task ln_x (list nat) := ln_task ex15_g2 (fun _ => 2%nat).
Definition ex57_S : list (ln_x * list nat) := [(ex15_x2, [0; 1]%nat); (ex15_x2, [1; 0]%nat)].
Definition ex57_prm2 : sg_params := SGParams 1 1 0 (Some 1) (-1) 2 0 1 None AvgNone false.
Definition ex57_st : sg_state := SGState ex15_w2 ex15_w2 (vzero 12) 0.
Definition ex57_cs := ok_or [] (mapM (fun p => find_constraint_latent ex57_m (fst p) (snd p) (sg_w ex57_st)) ex57_S).
Definition ex57_dj := ok_or [] (sum_features (vzero (sm_size (lm_s ex57_m))) (map (fun c => Ok (snd (fst (fst c)))) ex57_cs)).
Definition ex57_end := ok_or ex57_st (solve_subgradient ex57_prm2 2 1 (vscale (/ ofN 2) ex57_dj) ex57_st).
Definition ex57_V : list (list (ln_x * list nat) * sg_state * list Qc) := [(ex57_S, ex57_end, map (fun c => snd (fst c)) ex57_cs)].

Lemma ex57_exact : Forall (latent_exact ex57_m ex57_T (ln_E ex15_g2) 12 ex15_w2) ex57_S /\ Forall (right_loss ex57_m ex57_T (ln_E ex15_g2)) ex57_S.
Proof.
  assert (A : forall y, In y [[0; 1]; [1; 0]]%nat -> latent_exact ex57_m ex57_T (ln_E ex15_g2) 12 ex15_w2 (ex15_x2, y) /\ right_loss ex57_m ex57_T (ln_E ex15_g2) (ex15_x2, y)).
  { intros y Hy. destruct (ln_latent_exact ex15_g2 max_product_solver ex15_cluster (fun _ => 2%nat) ex15_x2 y ex15_w2 1) as [A1 [_ A3]].
    - exact ex15_instance2.
    - reflexivity.
    - exact ex15_weights2.
    - exact ex15_exact2.
    - cbn. lia.
    - destruct Hy as [<-|[<-|[]]]; split; [reflexivity|repeat constructor|reflexivity|repeat constructor].
    - left. cbn. lia.
    - exact ex15_small2.
    - split; assumption. }
  split; apply Forall_forall; intros p [<-|[<-|[]]]; apply A; cbn; auto.
Qed.
Lemma ex57_batches : par_batches ex57_prm2 ex57_m 2 1 ex57_st ex57_V.
Proof.
  unfold ex57_V. cbn [par_batches]. split; [discriminate|]. split; [|exact I]. exists ex57_cs, ex57_dj.
  split; [apply ok_or_ok; vm_compute; reflexivity|]. split; [reflexivity|]. split; [apply ok_or_ok; vm_compute; reflexivity|].
  change (length ex57_S) with 2%nat. apply ok_or_ok. vm_compute. reflexivity.
Qed.
Lemma ex57_completions y h : In y [[0; 1]; [1; 0]]%nat -> ln_E ex15_g2 ex15_x2 y h -> exists s, h = y ++ [s] /\ In s [2; 3]%nat.
Proof.
  intros _ [z [-> [L F]]]. destruct z as [|s [|]]; try discriminate L. exists s. split; [reflexivity|]. inversion F as [|? ? Q _]; subst. cbn in Q.
  destruct s as [|[|[|[|s]]]]; [lia|lia|cbn; auto|cbn; auto|lia].
Qed.
Lemma ex57_labels z : t_label ex57_T ex15_x2 z -> exists a b s, z = [a; b; s] /\ In a [0; 1]%nat /\ In b [0; 1]%nat /\ In s [2; 3]%nat.
Proof.
  intros [y [[L1 F1] [z' [-> [L F]]]]]. cbn in L1, L. destruct z' as [|s [|]]; try discriminate L. destruct y as [|a [|b [|]]]; try discriminate L1.
  exists a, b, s. split; [reflexivity|]. cbn in F1, F. inversion F1 as [|? ? Q1 F2]; subst. inversion F2 as [|? ? Q2 _]; subst. inversion F as [|? ? Q3 _]; subst.
  split; [|split].
  - destruct a as [|[|a]]; [cbn; auto|cbn; auto|lia].
  - destruct b as [|[|b]]; [cbn; auto|cbn; auto|lia].
  - destruct s as [|[|[|[|s]]]]; [lia|lia|cbn; auto|cbn; auto|lia].
Qed.
Lemma ex57_spread : Forall (fun p => forall z h, t_label ex57_T (fst p) z -> ln_E ex15_g2 (fst p) (snd p) h ->
  normsq (vsub (t_feat ex57_T (fst p) z) (t_feat ex57_T (fst p) h)) <= ofN 4 * ofN 4) ex57_S.
Proof.
  apply Forall_forall. intros p Hp z h Hz Hh.
  assert (P : fst p = ex15_x2 /\ In (snd p) [[0; 1]; [1; 0]]%nat) by (destruct Hp as [<-|[<-|[]]]; cbn; auto). destruct P as [P1 P2]. rewrite P1 in *.
  destruct (ex57_completions _ _ P2 Hh) as [s [-> Hs]]. destruct (ex57_labels z Hz) as [a [b [c [-> [Ha [Hb Hc]]]]]]. clear Hz Hh Hp.
  destruct P2 as [P2|[P2|[]]]; rewrite <- P2; destruct Hs as [<-|[<-|[]]]; destruct Ha as [<-|[<-|[]]]; destruct Hb as [<-|[<-|[]]]; destruct Hc as [<-|[<-|[]]]; vm_compute; discriminate.
Qed.
Lemma ex57_near : Forall (fun v => length v = 12%nat /\ normsq (vsub v (sg_self (par_end ex57_st ex57_V))) <= Q2Qc (3 # 2) * Q2Qc (3 # 2) /\
  Forall (latent_exact ex57_m ex57_T (ln_E ex15_g2) 12 v) (concat (map (fun v => fst (fst v)) ex57_V))) (par_looked_at ex57_st ex57_V).
Proof.
  constructor; [|constructor]. split; [reflexivity|]. split; [vm_compute; discriminate|]. exact (proj1 ex57_exact).
Qed.
