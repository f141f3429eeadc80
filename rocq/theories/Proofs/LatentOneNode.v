(** LatentGraphCRF on graphs of one node: a latent multiclass SVM. *)
From Coq Require Import ZArith.
From Verif Require Import Model.SvmAsCrf Model.LatentLearner Model.Learner Spec.SimilarSpec Spec.ClassSpec Spec.LatentSpec Spec.GraphSpec Proofs.Arrays Proofs.SymProofs Proofs.GraphCRFProofs Proofs.LossProofs
  Proofs.UnstructuredProofs Proofs.CRFProofs Proofs.OneNode Proofs.LatentProofs Proofs.LatentProofs2 Proofs.LatentProofs3 Proofs.LatentProofs5.

Section node.
Variables (nl F : nat) (p : per_label) (g : lg_crf) (solve : solver).
Hypothesis EG : lg_setup nl F p = Ok g.
Notation K := (lg_states g).
Notation counts := (lg_counts g).
Hypothesis HK : (0 < K)%nat.
Hypothesis Hsolve : first_best_node K solve.
Variables (x w : list Qc).
Hypothesis HX : length x = F.
Hypothesis HW : length w = g_size (lg_graph g).
Notation cs := (class_score F w x).

Lemma feats : lg_features g = F. Proof. apply (setup_laid_out _ _ _ _ EG). Qed.
Lemma laid : laid_out g. Proof. apply (setup_laid_out _ _ _ _ EG). Qed.
Lemma lnode_valid : valid_x (lg_graph g) (node_x x).
Proof. constructor; cbn; [split; [reflexivity|constructor; [reflexivity|constructor]]|rewrite feats; exact HX|constructor]. Qed.
Lemma lnode_unary : g_unary (lg_graph g) (node_x x) w = Ok (Mat 1 K [tab1 K cs]).
Proof.
  destruct (g_unary_ok (lg_graph g) (node_x x) w lnode_valid HW) as (U & EU & U1 & U2 & U3 & HU). rewrite EU. f_equal.
  change (Mat 1 K [tab1 K cs]) with (mtab 1 K (fun _ => cs)). apply mat_eq_ext; [exact U1|apply mtab_ok|exact U2|exact U3|]. intros i s Hi Hs. rewrite U2 in Hi. rewrite U3 in Hs. cbn in Hi, Hs.
  rewrite mget_mtab, HU by assumption. unfold unary_score, class_score. cbn [lg_graph g_features]. rewrite feats. apply sumn_ext. intros j Hj. assert (i = 0%nat) by lia. subst i. reflexivity.
Qed.
Lemma lnode_pairwise : exists P, g_pairwise (lg_graph g) (node_x x) w = Ok P /\ mrows P = K /\ mcols P = K /\ g_potentials (lg_graph g) (node_x x) w = Ok (Mat 1 K [tab1 K cs], P).
Proof.
  destruct (g_potentials_ok (lg_graph g) (node_x x) w lnode_valid HW) as (U & P & E & OU & RU & CU & OP & RP & CP & _).
  assert (E2 := E). unfold g_potentials in E2. apply bind_ok in E2. destruct E2 as [[] [_ E2]]. rewrite lnode_unary in E2. cbn [bind] in E2. apply bind_ok in E2. destruct E2 as [P' [EP E2]].
  exists P'. injection E2 as <- <-. auto.
Qed.
Lemma lnode_predict : exists s, first_argmax K cs s /\ g_inference solve (lg_graph g) (node_x x) w = Ok [s] /\ label_from_latent g [s] = Ok [owner counts s].
Proof.
  destruct lnode_pairwise as (P & _ & P1 & P2 & EP). destruct (argmax_tab1 K cs HK) as (s & ES & FA). exists s. split; [exact FA|]. split.
  - unfold g_inference. rewrite EP. cbn [bind fst snd node_x gx_edges]. rewrite Hsolve by (rewrite ?tab1_length; auto). rewrite ES. reflexivity.
  - apply (label_ok g laid). constructor; [apply FA|constructor].
Qed.
Lemma lnode_laug h : (h < K)%nat -> exists s, first_argmax K (fun t => cs t + if (owner counts h =? owner counts t)%nat then 0 else 1) s /\
  lg_loss_augmented_inference solve g (node_x x) [h] w = Ok [s].
Proof.
  intro Hh. destruct lnode_pairwise as (P & _ & P1 & P2 & EP).
  destruct (augment_all g laid 1 [h] (Mat 1 K [tab1 K cs])) as (u & EU & OU & RU & CU & V & _).
  { split; [reflexivity|]. repeat constructor. exact Hh. } { apply (mtab_ok 1 K (fun _ => cs)). } { reflexivity. } { reflexivity. }
  set (f := fun t => cs t + if (owner counts h =? owner counts t)%nat then 0 else 1) in *.
  assert (EQ : u = Mat 1 K [tab1 K f]).
  { change (Mat 1 K [tab1 K f]) with (mtab 1 K (fun _ => f)). apply mat_eq_ext; [exact OU|apply mtab_ok|exact RU|exact CU|]. intros i s Hi Hs. rewrite RU in Hi. rewrite CU in Hs.
    rewrite mget_mtab, V by assumption. assert (i = 0%nat) by lia. subst i. unfold f. cbn [lab nth]. f_equal. change (mget (Mat 1 K [tab1 K cs]) 0 s) with (get1 (tab1 K cs) s). apply get1_tab1. exact Hs. }
  destruct (argmax_tab1 K f HK) as (s & ES & FA). exists s. split; [exact FA|].
  unfold lg_loss_augmented_inference. rewrite EP. cbn [bind fst snd node_x gx_edges]. rewrite EU. cbn [bind]. rewrite EQ. rewrite Hsolve by (rewrite ?tab1_length; auto). rewrite ES. reflexivity.
Qed.

Lemma lnode_latent_run y M : 1 <= M -> (forall s, (s < K)%nat -> cs s <= M) -> (M = 1 \/ exists s, (s < K)%nat /\ M = cs s) ->
  exists s, first_argmax K (fun t => if (owner counts t =? y)%nat then cs t else - ofN 100 * M) s /\ lg_latent solve g (node_x x) [y] w = settle g [y] [s].
Proof.
  intros M1 MB MA. destruct lnode_pairwise as (P & EP & P1 & P2 & _). destruct (argmax_tab1 K cs HK) as (b & _ & FB).
  set (f := fun t => if (owner counts t =? y)%nat then cs t else - ofN 100 * M).
  assert (EM : Qcmax (cs b) 1 = M).
  { apply Qcle_antisym; [apply Qcmax_lub; [apply MB, FB|exact M1]|]. destruct MA as [->|[s [Hs ->]]]; [apply Qcmax_ge_r|]. eapply Qcle_trans; [apply (proj1 (proj2 FB)); exact Hs|apply Qcmax_ge_l]. }
  destruct (argmax_tab1 K f HK) as (s & ES & FA). exists s. split; [exact FA|].
  unfold lg_latent. rewrite lnode_unary. cbn [bind]. unfold ravel at 1. cbn [mdat concat]. rewrite app_nil_r. rewrite (max_tab1 K cs b FB). cbn [bind mrows mcols length].
  destruct laid as [_ [LM LO]]. rewrite LM, (Nat.eqb_refl K). cbn [Nat.eqb andb ensure bind]. rewrite EM, EP. cbn [bind node_x gx_edges].
  assert (EQ : mtab 1 K (fun i s => if (nth s (lg_map g) O =? nth i [y] O)%nat then mget (Mat 1 K [tab1 K cs]) i s else - ofN 100 * M) = Mat 1 K [tab1 K f]).
  { change (Mat 1 K [tab1 K f]) with (mtab 1 K (fun _ => f)). apply mat_eq_ext; [apply mtab_ok|apply mtab_ok|reflexivity|reflexivity|]. intros i t Hi Ht. cbn [mrows mcols mtab] in Hi, Ht. rewrite !mget_mtab by assumption.
    assert (i = 0%nat) by lia. subst i. cbn [nth]. unfold f. rewrite LO by exact Ht. destruct (owner counts t =? y)%nat; [|reflexivity]. change (mget (Mat 1 K [tab1 K cs]) 0 t) with (get1 (tab1 K cs) t). apply get1_tab1. exact Ht. }
  rewrite EQ. rewrite Hsolve by (rewrite ?tab1_length; auto). rewrite ES. reflexivity.
Qed.
Lemma lnode_latent y M : (y < nl)%nat -> 1 <= M -> (forall s, (s < K)%nat -> cs s <= M) -> (M = 1 \/ exists s, (s < K)%nat /\ M = cs s) ->
  (exists t, in_block counts y t /\ - ofN 100 * M < cs t) ->
  exists s, lg_latent solve g (node_x x) [y] w = Ok [s] /\ in_block counts y s /\ (forall t, in_block counts y t -> cs t <= cs s) /\
    (forall t, in_block counts y t -> (t < s)%nat -> cs t < cs s).
Proof.
  intros Hy M1 MB MA [t [Bt Lt]]. destruct (lnode_latent_run y M M1 MB MA) as (s & (S1 & S2 & S3) & ->).
  assert (OB : forall q, in_block counts y q -> (q < K)%nat /\ (owner counts q =? y)%nat = true).
  { intros q Bq. split; [exact (block_states _ _ _ Bq)|]. rewrite (block_owner _ _ _ Bq). apply Nat.eqb_refl. }
  assert (OS : owner counts s = y).
  { destruct (OB t Bt) as [T1 T2]. assert (Q := S2 t T1). cbv beta in Q. rewrite T2 in Q. destruct (owner counts s =? y)%nat eqn:EE; [apply Nat.eqb_eq; exact EE|].
    exfalso. revert Q. apply Qclt_not_le. exact Lt. }
  assert (BS : in_block counts y s) by (rewrite <- OS; apply owner_block; exact S1).
  assert (ES : (owner counts s =? y)%nat = true) by (rewrite OS; apply Nat.eqb_refl). cbv beta in S2, S3.
  exists s. split; [|split; [exact BS|split]].
  - apply settle_consistent; [exact laid|]. constructor; [exact BS|constructor].
  - intros q Bq. destruct (OB q Bq) as [Q1 Q2]. specialize (S2 q Q1). rewrite Q2 in S2. rewrite ?ES in S2. exact S2.
  - intros q Bq Lq. destruct (OB q Bq) as [Q1 Q2]. specialize (S3 q Lq). rewrite Q2 in S3. rewrite ?ES in S3. exact S3.
Qed.
Lemma lnode_fallback y M : (y < nl)%nat -> 1 <= M -> (forall s, (s < K)%nat -> cs s <= M) -> (M = 1 \/ exists s, (s < K)%nat /\ M = cs s) ->
  (forall t, in_block counts y t -> cs t < - ofN 100 * M) -> (exists t, (t < K)%nat /\ ~ in_block counts y t) ->
  lg_latent solve g (node_x x) [y] w = Ok [offset counts y].
Proof.
  intros Hy M1 MB MA LT [t [Ht Nt]]. destruct (lnode_latent_run y M M1 MB MA) as (s & (S1 & S2 & S3) & ->).
  assert (NS : ~ in_block counts y s).
  { intro BS. specialize (S2 t Ht). cbv beta in S2. rewrite (block_owner _ _ _ BS), Nat.eqb_refl in S2.
    destruct (Nat.eqb_spec (owner counts t) y) as [E|NE]; [apply Nt; rewrite <- E; apply owner_block; exact Ht|]. revert S2. apply Qclt_not_le. apply LT. exact BS. }
  rewrite settle_inconsistent; [|exact laid|constructor; [exact S1|constructor]|reflexivity|].
  - rewrite fallback_ok; [reflexivity|]. constructor; [|constructor]. destruct (setup_laid_out _ _ _ _ EG) as [[L1 _] [L2 _]]. lia.
  - intro HE. apply NS. inversion HE. assumption.
Qed.

Lemma lnode_joint h : (h < K)%nat -> exists f, g_joint_feature (lg_graph g) (node_x x) (Discrete [h]) = Ok f /\ length f = g_size (lg_graph g) /\ dot w f = cs h.
Proof.
  intro Hh. exists (class_feature 1 K F x h ++ vzero (g_size (lg_graph g) - K * F)).
  assert (GE : lg_graph g = GraphCRF K F false) by (unfold lg_graph; rewrite feats; reflexivity).
  assert (LE : (K * F <= g_size (lg_graph g))%nat) by (rewrite GE; unfold g_size; cbn; lia).
  split. { rewrite GE. exact (node_joint K F false (repeat 1 K) HK (repeat_length _ _) x h HX Hh). }
  split. { rewrite app_length, vzero_length, class_feature_length. lia. }
  rewrite <- (firstn_skipn (K * F) w). assert (LF : length (firstn (K * F) w) = (K * F)%nat) by (rewrite firstn_length; lia).
  rewrite dot_app by (rewrite class_feature_length; exact LF). rewrite dot_vzero_r. rewrite dot_class_feature by assumption. rewrite Qcplus_0_r, Qcmult_1_l. rewrite firstn_skipn.
  unfold class_score. apply sumn_ext. intros j Hj. f_equal. unfold get1. rewrite <- (firstn_skipn (K * F) w) at 2. rewrite app_nth1; [reflexivity|]. rewrite LF. nia.
Qed.
Lemma lnode_constraint h : (h < K)%nat -> exists s f, first_argmax K (fun t => cs t + if (owner counts h =? owner counts t)%nat then 0 else 1) s /\
  find_constraint (lg_smodel solve g) (node_x x) [h] w None true =
    Ok ([s], f, cs s + (if (owner counts h =? owner counts s)%nat then 0 else 1) - cs h, if (owner counts h =? owner counts s)%nat then 0 else 1).
Proof.
  intro Hh. destruct (lnode_laug h Hh) as (s & FA & E). destruct FA as (S1 & S2 & S3).
  destruct (lnode_joint h Hh) as (fh & E1 & L1 & D1). destruct (lnode_joint s S1) as (fs & E2 & L2 & D2).
  exists s, (vadd (vscale (- (1)) fs) fh). split; [repeat split; assumption|].
  set (l := if (owner counts h =? owner counts s)%nat then 0 else 1) in *.
  unfold find_constraint. cbn [lg_smodel sm_laug sm_joint sm_rescale sm_tuple sm_loss]. rewrite E. cbn [bind]. rewrite E2. cbn [bind]. rewrite E1. cbn [bind].
  unfold np_vadd. rewrite vscale_length, L1, L2, Nat.eqb_refl. cbn [ensure bind].
  assert (EL : lg_loss g [h] [s] = Ok l).
  { destruct (augmented_score nl F p g 1 [h] (Mat 1 K [tab1 K cs]) EG) as (u & _ & _ & _ & _ & _ & W).
    { split; [reflexivity|]. repeat constructor. exact Hh. } { apply (mtab_ok 1 K (fun _ => cs)). } { reflexivity. } { reflexivity. }
    destruct (W [] (fun _ _ _ => 0) [s]) as [-> _]. { split; [reflexivity|]. repeat constructor. exact S1. }
    f_equal. unfold label_distance, hamming, l. cbn [length]. rewrite sumn_S. match goal with |- context [sumn 0 ?f] => change (sumn 0 f) with 0 end. cbn [lab nth]. destruct (owner counts h =? owner counts s)%nat; ring. }
  rewrite EL. cbn [bind].
  assert (LV : length (vadd (vscale (- (1)) fs) fh) = length w) by (unfold vadd; rewrite zipw_length; rewrite ?vscale_length; congruence).
  unfold np_dot. rewrite LV, Nat.eqb_refl. cbn [ensure bind].
  assert (ED : dot w (vadd (vscale (- (1)) fs) fh) = cs h - cs s). { rewrite dot_vadd_r by (rewrite vscale_length; congruence). rewrite dot_vscale_r, D1, D2. ring. }
  rewrite ED. f_equal. f_equal. f_equal.
  replace (l - (cs h - cs s)) with (cs s + l - cs h) by ring.
  apply Qcle_antisym; [|apply Qcmax_ge_l]. apply Qcmax_lub; [apply Qcle_refl|]. specialize (S2 h Hh). cbv beta in S2. rewrite Nat.eqb_refl in S2. fold l in S2.
  set (a := cs h) in *. set (b := cs s) in *. clearbody a b l. qclra.
Qed.
End node.
