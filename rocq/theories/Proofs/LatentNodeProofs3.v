(** LatentNodeCRF and EdgeFeatureLatentNodeCRF: completion by any solver; exact solvers; the
    models as tasks. *)
From Verif Require Import Model.LatentNode Spec.GraphSpec Spec.SolverSpec
  Proofs.Arrays Proofs.EnergyProofs Proofs.GraphCRFProofs Proofs.LossProofs Proofs.CRFProofs Proofs.MaxProdProofs
  Proofs.EdgeFeatureProofs Proofs.EdgeFeatureProofs2
  Proofs.LatentProofs Proofs.LatentProofs2 Proofs.LatentNodeProofs Proofs.LatentNodeProofs2 Spec.LatentNodeSpec.

(** ** completion by any solver *)
Lemma differs_cases y h b : ln_differs y h = Ok b -> (length y <= length h)%nat /\ (b = false <-> firstn (length y) h = y).
Proof.
  unfold ln_differs. intros E. apply bind_ok in E. destruct E as [d [E1 E2]]. injection E2 as <-. split.
  - unfold mismatch in E1. destruct (Nat.eqb_spec (length (firstn (length y) h)) (length y)) as [Q|Q]; [|discriminate E1]. rewrite firstn_length in Q. lia.
  - split; intros H.
    + apply (mismatch_zero _ _ _ E1). destruct (forallb _ d); [reflexivity|discriminate H].
    + rewrite H in E1. destruct (mismatch_same y) as [d' [F1 F2]]. assert (d' = d) by congruence. subst d'. rewrite F2. reflexivity.
Qed.
Lemma differs_ok y h : (length y <= length h)%nat -> exists b, ln_differs y h = Ok b.
Proof.
  intros H. unfold ln_differs, mismatch. rewrite firstn_length, Nat.min_l by exact H. rewrite Nat.eqb_refl. eexists. reflexivity.
Qed.
Lemma ln_latent_prefix solve g x y w h : ln_latent solve g x y w = Ok h -> exists z, h = y ++ z.
Proof.
  unfold ln_latent. intros E. apply bind_ok in E. destruct E as [u [_ E]]. apply bind_ok in E. destruct E as [u' [_ E]]. apply bind_ok in E. destruct E as [P [_ E]].
  apply bind_ok in E. destruct E as [h' [_ E]]. apply bind_ok in E. destruct E as [b [E1 E]]. destruct (differs_cases _ _ _ E1) as [_ Q].
  destruct b; [discriminate E|]. injection E as <-. exists (skipn (length y) h'). rewrite <- (proj1 Q eq_refl) at 1. symmetry. apply firstn_skipn.
Qed.
Lemma el_latent_prefix solve g x y w h : el_latent solve g x y w = Ok h -> exists z, h = y ++ z.
Proof.
  unfold el_latent. intros E. apply bind_ok in E. destruct E as [u [_ E]]. apply bind_ok in E. destruct E as [u' [_ E]]. apply bind_ok in E. destruct E as [P [_ E]].
  apply bind_ok in E. destruct E as [h' [_ E]]. apply bind_ok in E. destruct E as [b [E1 E]]. destruct (differs_cases _ _ _ E1) as [_ Q].
  destruct b; injection E as <-; [eexists; reflexivity|]. exists (skipn (length y) h'). rewrite <- (proj1 Q eq_refl) at 1. symmetry. apply firstn_skipn.
Qed.
Lemma prefix_label g y z : Forall (fun l => (l < ln_labels g)%nat) y ->
  ln_label_from_latent g (y ++ z) = y <-> Forall (fun s => (ln_labels g <= s)%nat) z.
Proof.
  intros HY. unfold ln_label_from_latent. rewrite filter_app', (filter_low _ _ HY). split; intros H.
  - assert (N : filter (fun s => s <? ln_labels g)%nat z = []) by (apply (app_inv_head y); rewrite H, app_nil_r; reflexivity). clear H.
    induction z as [|s z IH]; constructor; cbn [filter] in N.
    + destruct (Nat.ltb_spec s (ln_labels g)); [discriminate N|assumption].
    + apply IH. destruct (s <? ln_labels g)%nat; [discriminate N|exact N].
  - replace (filter (fun s => s <? ln_labels g)%nat z) with (@nil nat); [apply app_nil_r|]. induction H as [|s z Hs _ IH]; [reflexivity|].
    cbn [filter]. apply Nat.ltb_ge in Hs. rewrite Hs. exact IH.
Qed.

(** ** LatentNodeCRF *)
Section LN.
Variables (g : ln_crf) (x : ln_x) (nv : nat).
Hypothesis HX : node_instance g x nv.
Let n := (nv + lx_hidden x)%nat.
Let S := ln_states g.
Let L := ln_labels g.
Let K := ln_hidden g.
Variable w : list Qc.
Hypothesis HW : length w = ln_size g.
Hypothesis Hn : (0 < n)%nat.
Hypothesis HS : (0 < S)%nat.

Lemma ln_potentials : exists U P M, ln_unary g x w = Ok U /\ ln_pairwise g x w = Ok P /\ mat_ok U /\ mrows U = n /\ mcols U = S /\ 1 <= M /\
  (forall i s, (i < n)%nat -> (s < S)%nat -> mget U i s = if legal L nv i s then node_score g x nv w i s else - ofN 100 * M) /\
  (forall i s, (i < n)%nat -> (s < S)%nat -> node_score g x nv w i s <= M) /\
  mat_ok P /\ mrows P = S /\ mcols P = S /\ (forall s t, (s < S)%nat -> (t < S)%nat -> mget P s t = joint_score g w s t).
Proof.
  destruct (unary_core_ok g x nv HX w (size_ge g x nv w HW) Hn HS) as [U [M [E [O [R [C [M1 [V1 V2]]]]]]]].
  destruct (ln_pairwise_ok g x nv HX w HW) as [P [EP [OP [RP [CP GP]]]]].
  exists U, P, M. rewrite (ln_unary_ok g x nv HX w HW). repeat (split; [assumption|]). assumption.
Qed.
Lemma table_score U P h : labelling n S h -> (forall s t, (s < S)%nat -> (t < S)%nat -> mget P s t = joint_score g w s t) ->
  score n (lx_edges x) U (fun _ => mget P) (lab h) = score n (lx_edges x) U (fun _ => joint_score g w) (lab h).
Proof.
  intros HH GP. apply score_ext; [exact (ni_edges _ _ _ HX)|reflexivity|]. intros e a b _ Ha Hb. apply GP; apply (labelling_lt n); assumption.
Qed.
Lemma table_maximiser U P h : (forall s t, (s < S)%nat -> (t < S)%nat -> mget P s t = joint_score g w s t) ->
  maximiser n S (lx_edges x) U (fun _ => mget P) h -> maximiser n S (lx_edges x) U (fun _ => joint_score g w) h.
Proof.
  intros GP [L1 L2]. split; [exact L1|]. intros z Hz. rewrite <- !(table_score U P) by assumption. apply L2, Hz.
Qed.
(** any solver that answers with labellings *)
Lemma ln_latent_total solve y : labelling nv L y ->
  (forall U P, mat_ok U -> mat_ok P -> mrows U = n -> mcols U = S -> mrows P = S -> mcols P = S ->
     exists h, solve U (Pw2 P) (lx_edges x) = Ok h /\ labelling n S h) ->
  (exists h, ln_latent solve g x y w = Ok h /\ labelling n S h) \/ ln_latent solve g x y w = Err ValueError.
Proof.
  intros HY HSO. destruct ln_potentials as [U [P [M [EU [EP [OU [RU [CU [M1 [GU [GM [OP [RP [CP GP]]]]]]]]]]]]]].
  destruct (clamp_ok g nv (lx_hidden x) U OU RU CU y HY Hn HS) as [U' [M' [E1 [O1 [R1 [C1 _]]]]]].
  destruct (HSO U' P O1 OP R1 C1 RP CP) as [h [E2 LH]]. unfold ln_latent. rewrite EU. cbn [bind]. rewrite E1. cbn [bind]. rewrite EP. cbn [bind]. rewrite E2. cbn [bind].
  destruct (differs_ok y h) as [b E3]; [rewrite (proj1 LH), (proj1 HY); unfold n; lia|]. rewrite E3. cbn [bind]. destruct b; [right; reflexivity|left; exists h; split; [reflexivity|exact LH]].
Qed.

Variables B B' : Qc.
Hypothesis HB : forall i s, (i < n)%nat -> (s < S)%nat -> legal L nv i s = true -> - B <= node_score g x nv w i s /\ node_score g x nv w i s <= B.
Hypothesis HB' : forall s t, (s < S)%nat -> (t < S)%nat -> - B' <= joint_score g w s t /\ joint_score g w s t <= B'.
Hypothesis B0 : 0 <= B.
Variable solve : solver.
Hypothesis HE : exact_solver_on solve n (lx_edges x).
Lemma node_total_eq h : node_total g x nv w h = score n (lx_edges x) (node_score g x nv w) (fun _ => joint_score g w) (lab h).
Proof. reflexivity. Qed.
Lemma ln_latent_best y h0 : labelling nv L y -> completes L K (lx_hidden x) y h0 ->
  ofN n * (B + B) + ofN (length (lx_edges x)) * (B' + B') < ofN 100 ->
  exists h, ln_latent solve g x y w = Ok h /\ completes L K (lx_hidden x) y h /\
    forall h', completes L K (lx_hidden x) y h' -> node_total g x nv w h' <= node_total g x nv w h.
Proof.
  intros HY H0 SM. destruct ln_potentials as [U [P [M [EU [EP [OU [RU [CU [M1 [GU [GM [OP [RP [CP GP]]]]]]]]]]]]]].
  destruct (clamp_ok g nv (lx_hidden x) U OU RU CU y HY Hn HS) as [U' [M' [E1 [O1 [R1 [C1 _]]]]]].
  destruct (HE U' P S O1 OP R1 C1 RP CP HS) as [h [E2 MX]]. apply (table_maximiser _ _ _ GP) in MX.
  destruct (core_latent g nv (lx_hidden x) (lx_edges x) U (node_score g x nv w) M (fun _ => joint_score g w) (ni_edges _ _ _ HX) OU RU CU M1 GU B B' HB (fun e s t _ => HB' s t) y U' h h0 B0 HY H0 E1 MX SM) as [H1 H2].
  exists h. split; [|split; [exact H1|exact H2]]. unfold ln_latent. rewrite EU. cbn [bind]. rewrite E1. cbn [bind]. rewrite EP. cbn [bind]. rewrite E2. cbn [bind].
  destruct (differs_ok y h) as [b E3]; [rewrite (completes_length _ _ _ _ _ H1); lia|]. rewrite E3. cbn [bind].
  destruct (differs_cases _ _ _ E3) as [_ Q]. assert (Qb : b = false). { apply Q. destruct H1 as [z [-> _]]. rewrite firstn_app, Nat.sub_diag. cbn [firstn]. rewrite app_nil_r. apply firstn_all. }
  rewrite Qb. reflexivity.
Qed.
Lemma ln_inference_best h0 : two_level L K nv (lx_hidden x) h0 ->
  ofN n * (B + B) + ofN (length (lx_edges x)) * (B' + B') < ofN 100 ->
  exists h, ln_inference solve g x w = Ok h /\ two_level L K nv (lx_hidden x) h /\
    forall h', two_level L K nv (lx_hidden x) h' -> node_total g x nv w h' <= node_total g x nv w h.
Proof.
  intros H0 SM. destruct ln_potentials as [U [P [M [EU [EP [OU [RU [CU [M1 [GU [GM [OP [RP [CP GP]]]]]]]]]]]]]].
  destruct (HE U P S OU OP RU CU RP CP HS) as [h [E2 MX]]. apply (table_maximiser _ _ _ GP) in MX.
  destruct (core_inference g nv (lx_hidden x) (lx_edges x) U (node_score g x nv w) M (fun _ => joint_score g w) (ni_edges _ _ _ HX) M1 GU B B' HB (fun e s t _ => HB' s t) h h0 B0 H0 MX SM) as [H1 H2].
  exists h. split; [|split; [exact H1|exact H2]]. unfold ln_inference. rewrite check_size_w_ok by exact HW. cbn [bind]. rewrite EU. cbn [bind]. rewrite EP. exact E2.
Qed.
Lemma ln_laug_best hy R : length (ln_cw g) = L -> two_level L K nv (lx_hidden x) hy -> 0 <= R -> (forall l, (l < L)%nat -> 0 <= get1 (ln_cw g) l /\ get1 (ln_cw g) l <= R) ->
  ofN n * (B + R + (B + R)) + ofN (length (lx_edges x)) * (B' + B') < ofN 100 ->
  exists h, ln_loss_augmented_inference solve g x hy w = Ok h /\ two_level L K nv (lx_hidden x) h /\
    forall h', two_level L K nv (lx_hidden x) h' -> node_total g x nv w h' + visible_loss g hy h' <= node_total g x nv w h + visible_loss g hy h.
Proof.
  intros HC HY R0 HR SM. destruct ln_potentials as [U [P [M [EU [EP [OU [RU [CU [M1 [GU [GM [OP [RP [CP GP]]]]]]]]]]]]]].
  destruct (label_two_level g nv _ hy HY) as [Y1 _].
  destruct (ln_augment_all g hy U) as [U' [E1 [O1 [R1 [C1 _]]]]]; [rewrite HC; apply Y1|exact OU|rewrite (proj1 Y1), RU; unfold n; lia|exact CU|].
  rewrite RU in R1. destruct (HE U' P S O1 OP R1 C1 RP CP HS) as [h [E2 MX]]. apply (table_maximiser _ _ _ GP) in MX.
  destruct (core_laug g nv (lx_hidden x) (lx_edges x) U (node_score g x nv w) M (fun _ => joint_score g w) (ni_edges _ _ _ HX) OU RU CU M1 GU B B' HB (fun e s t _ => HB' s t) HC hy U' h B0 HY E1 MX R R0 HR SM) as [H1 H2].
  exists h. split; [|split; [exact H1|exact H2]]. unfold ln_loss_augmented_inference. rewrite check_size_w_ok by exact HW. cbn [bind]. rewrite EU. cbn [bind]. rewrite EP. cbn [bind]. fold S in E1. fold S. rewrite E1. exact E2.
Qed.
End LN.

(** ** EdgeFeatureLatentNodeCRF *)
Section EL.
Variables (g : el_crf) (x : el_x) (nv : nat).
Hypothesis HX : edge_instance g x nv.
Let b := el_node g.
Let xb := xl_node x.
Let n := (nv + lx_hidden xb)%nat.
Let S := ln_states b.
Let L := ln_labels b.
Let K := ln_hidden b.
Let IF := (ln_input_states b * ln_features b)%nat.
Let D := el_edge_features g.
Lemma el_check_ok : el_check_x g x = Ok tt.
Proof.
  unfold el_check_x. destruct HX as [H1 H2 H3]. rewrite (check_x_ok _ _ _ H1). cbn [bind]. rewrite H2, Nat.eqb_refl. cbn [ensure bind]. rewrite H3, Nat.eqb_refl. reflexivity.
Qed.
Let gE := EFCRF S 0 D (el_sym g) (el_anti g).
Lemma gE_size (w : list Qc) : length w = el_size g -> length (skipn IF w) = ef_size gE.
Proof. intros HW. rewrite skipn_length, HW. unfold el_size, ef_size, gE. cbn [ef_states ef_features ef_edge_features]. fold b S D IF. lia. Qed.
Lemma el_size_ge (w : list Qc) : length w = el_size g -> (IF <= length w)%nat.
Proof. intros HW. rewrite HW. unfold el_size. fold b IF. lia. Qed.
Lemma el_pairwise_ok w : length w = el_size g -> (0 < D)%nat ->
  exists d, el_pairwise g x w = Ok (Pw3 (length (lx_edges xb)) S S d) /\ length d = length (lx_edges xb) /\
  forall e s t, (e < length (lx_edges xb))%nat -> (s < S)%nat -> (t < S)%nat -> get2 (nth e d []) s t = edge_joint_score g x w e s t.
Proof.
  intros HW HD. destruct (ef_pairwise_core_ok gE (xl_edge_features x) (skipn IF w) (ei_cols _ _ _ HX) HD (gE_size w HW)) as [d [E [LD V]]].
  rewrite (ei_rows _ _ _ HX) in E, LD, V. exists d. split; [|split; [exact LD|]].
  - unfold el_pairwise. rewrite check_size_w_ok by exact HW. rewrite el_check_ok. cbn [bind]. unfold ef_pairwise_core in E.
    cbn [ef_states ef_features ef_edge_features gE] in E. rewrite Nat.mul_0_r in E. cbn [skipn] in E. exact E.
  - intros e s t He Hs Ht. rewrite V by assumption. reflexivity.
Qed.
Lemma el_unary_eq w : length w = el_size g -> el_unary g x w = ln_unary_core b xb w.
Proof. intros HW. unfold el_unary. rewrite check_size_w_ok by exact HW. rewrite el_check_ok. reflexivity. Qed.

Lemma el_joint_dot um pw w : edge_declared g -> mrows um = n -> mcols um = S -> mrows pw = length (lx_edges xb) -> mcols pw = (S * S)%nat -> length w = el_size g ->
  exists psi, (let! pw1 := mat_mul (mat_T (xl_edge_features x)) pw in let! pw2 := sym_rows mat_add S (el_sym g) pw1 in let! pw3 := sym_rows mat_sub S (el_anti g) pw2 in
               let! acc := ln_unaries_acc b um (lx_features xb) in Ok (ravel acc ++ ravel pw3)) = Ok psi /\ length psi = el_size g /\
  dot w psi = sumn n (fun i => sumn S (fun s => mget um i s * node_score b xb nv w i s)) +
    sumn (length (lx_edges xb)) (fun e => sumn S (fun s => sumn S (fun t => mget pw e (s * S + t) *
      sumn D (fun f => mget (xl_edge_features x) e f * effective_weight S 0 (el_sym g) (el_anti g) (skipn IF w) f s t)))).
Proof.
  intros HD RU CU RP CP HW. pose proof (ei_node _ _ _ HX) as HN. destruct (acc_ok b xb nv HN um w RU CU (el_size_ge w HW)) as [acc [E [LA DA]]].
  destruct (ef_core_dot gE (Mat n 0 (repeat [] n)) (lx_edges xb) (xl_edge_features x) (ERelaxed (vzero (n * S)) pw) (mtab n S (fun i j => get1 (vzero (n * S)) (i * S + j))) pw (skipn IF w))
    as [psi [E1 [L1 [_ [_ D1]]]]]; try reflexivity.
  - cbn [ef_marginals mrows ef_states gE]. rewrite reshape_ok by apply repeat_length. reflexivity.
  - exact HD.
  - exact (ei_cols _ _ _ HX).
  - rewrite (ei_rows _ _ _ HX). exact RP.
  - exact CP.
  - apply gE_size, HW.
  - unfold ef_joint_feature_core in E1. cbn [ef_marginals mrows ef_states ef_sym ef_anti gE] in E1. rewrite reshape_ok in E1 by apply repeat_length. cbn [bind] in E1.
    apply bind_ok in E1. destruct E1 as [pw1 [Q1 E1]]. apply bind_ok in E1. destruct E1 as [pw2 [Q2 E1]]. apply bind_ok in E1. destruct E1 as [pw3 [Q3 E1]].
    apply bind_ok in E1. destruct E1 as [acc0 [Q4 E1]].
    assert (NIL : ravel acc0 = []).
    { rewrite mat_mul_ok in Q4 by reflexivity. injection Q4 as <-. apply length_zero_iff_nil. cbn [mcols]. rewrite ravel_mtab_length. lia. }
    rewrite NIL in E1. cbn [app] in E1. assert (psi = ravel pw3) by congruence. subst psi.
    exists (ravel acc ++ ravel pw3). split.
    { rewrite Q1. cbn [bind]. rewrite Q2. cbn [bind]. rewrite Q3. cbn [bind]. rewrite E. reflexivity. }
    split.
    { rewrite app_length, LA, L1, <- (gE_size w HW), skipn_length. fold IF. pose proof (el_size_ge w HW). lia. }
    rewrite <- (firstn_skipn IF w) at 1. rewrite dot_app by (rewrite firstn_length, LA; fold IF; pose proof (el_size_ge w HW); lia).
    fold IF in DA. rewrite DA, D1. f_equal. cbn [mrows ef_states ef_features gE]. rewrite (sumn_zero n).
    2:{ intros i _. apply sumn_zero. intros s _. unfold unary_score. rewrite sumn_O. ring. }
    rewrite Qcplus_0_l, (ei_rows _ _ _ HX). reflexivity.
Qed.
Lemma el_joint_discrete w h : edge_declared g -> length w = el_size g -> lx_edges xb <> [] -> labelling n S h ->
  exists psi, el_joint_feature g x (ELDiscrete h) = Ok psi /\ length psi = el_size g /\ dot w psi = edge_effective_total g x nv w h.
Proof.
  intros HD HW HNE HH. pose proof (ei_node _ _ _ HX) as HN.
  set (um := mtab (length h) S (fun i s => ind (s =? nth i h 0)%nat)).
  set (pw := mtab (length (lx_edges xb)) (S * S) (fun i q => mget um (fst (nth i (lx_edges xb) (O, O))) (q / S) * mget um (snd (nth i (lx_edges xb) (O, O))) (q mod S))).
  destruct (el_joint_dot um pw w HD (proj1 HH) eq_refl eq_refl eq_refl HW) as [psi [E [LP DP]]].
  exists psi. split; [|split; [exact LP|]].
  - unfold el_joint_feature. rewrite el_check_ok. cbn [bind]. fold b xb S. rewrite one_hot_ok by apply HH. cbn [bind]. fold um.
    rewrite ensure_true.
    2:{ apply forallb_forall. intros p Hp. pose proof (ni_edges _ _ _ HN) as GE. unfold graph_edges in GE. rewrite Forall_forall in GE. destruct (GE p Hp) as [A1 A2].
        rewrite (proj1 HH). apply andb_true_iff. split; apply Nat.ltb_lt; assumption. }
    cbn [bind]. rewrite ensure_true by (destruct (lx_edges xb); [destruct HNE; reflexivity|reflexivity]). cbn [bind]. exact E.
  - rewrite DP. unfold edge_effective_total, score. fold b xb n S IF D.
    assert (GU : forall i s, (i < n)%nat -> (s < S)%nat -> mget um i s = ind (s =? lab h i)%nat).
    { intros i s Hi Hs. unfold um. rewrite mget_mtab by (rewrite ?(proj1 HH); assumption). reflexivity. }
    pose proof (pick_nodes b xb nv (node_score b xb nv w) h (mget um) HH GU) as PN. fold S n in PN. rewrite PN. f_equal.
    set (T := fun e s t => sumn D (fun f => mget (xl_edge_features x) e f * effective_weight S 0 (el_sym g) (el_anti g) (skipn IF w) f s t)).
    assert (PP : forall e s t, (e < length (lx_edges xb))%nat -> (s < S)%nat -> (t < S)%nat -> mget pw e (s * S + t) =
       ind (s =? lab h (fst (nth e (lx_edges xb) (O, O))))%nat * ind (t =? lab h (snd (nth e (lx_edges xb) (O, O))))%nat).
    2:{ pose proof (pick_pairs b xb nv HN T h HH (fun e s t => mget pw e (s * S + t)) PP) as Q. fold S in Q. unfold T in Q |- *. rewrite Q. reflexivity. }
    intros e s t He Hs Ht. unfold pw. rewrite mget_mtab by first [assumption|nia].
    destruct (graph_edges_nth _ _ e (ni_edges _ _ _ HN) He) as [A1 A2].
    replace ((s * S + t) / S)%nat with s by (apply (Nat.div_unique (s * S + t) S s t); clearbody S; clear - Hs Ht; nia).
    replace ((s * S + t) mod S)%nat with t by (apply (Nat.mod_unique (s * S + t) S s t); clearbody S; clear - Hs Ht; nia).
    rewrite !GU by assumption. reflexivity.
Qed.
Lemma el_joint_relaxed w um pw : edge_declared g -> length w = el_size g -> mrows um = n -> mcols um = S -> mrows pw = length (lx_edges xb) -> mcols pw = (S * S)%nat ->
  exists psi, el_joint_feature g x (ELRelaxed um pw) = Ok psi /\ length psi = el_size g /\
  dot w psi = sumn n (fun i => sumn S (fun s => mget um i s * node_score b xb nv w i s)) +
    sumn (length (lx_edges xb)) (fun e => sumn S (fun s => sumn S (fun t => mget pw e (s * S + t) *
      sumn D (fun f => mget (xl_edge_features x) e f * effective_weight S 0 (el_sym g) (el_anti g) (skipn IF w) f s t)))).
Proof.
  intros HD HW RU CU RP CP. destruct (el_joint_dot um pw w HD RU CU RP CP HW) as [psi [E [LP DP]]]. exists psi. split; [|split; [exact LP|exact DP]].
  unfold el_joint_feature. rewrite el_check_ok. cbn [bind fst snd]. exact E.
Qed.
Lemma effective_eq w e s t : edge_weights_ok g w -> (s < S)%nat -> (t < S)%nat ->
  sumn D (fun f => mget (xl_edge_features x) e f * effective_weight S 0 (el_sym g) (el_anti g) (skipn IF w) f s t) = edge_joint_score g x w e s t.
Proof. intros H Hs Ht. exact (eff_score_respects gE (skipn IF w) (mget (xl_edge_features x) e) s t H Hs Ht). Qed.
Lemma effective_total_eq w h : edge_weights_ok g w -> labelling n S h -> edge_effective_total g x nv w h = edge_total g x nv w h.
Proof.
  intros H HH. unfold edge_effective_total, edge_total. apply score_ext; [exact (ni_edges _ _ _ (ei_node _ _ _ HX))|reflexivity|].
  intros e i j _ Hi Hj. apply effective_eq; [exact H| |]; apply (labelling_lt n); assumption.
Qed.

Variable w : list Qc.
Hypothesis HW : length w = el_size g.
Hypothesis Hn : (0 < n)%nat.
Hypothesis HS : (0 < S)%nat.
Hypothesis HD : (0 < D)%nat.
Lemma el_potentials : exists U P M, el_unary g x w = Ok U /\ el_pairwise g x w = Ok P /\ mat_ok U /\ mrows U = n /\ mcols U = S /\ 1 <= M /\
  (forall i s, (i < n)%nat -> (s < S)%nat -> mget U i s = if legal L nv i s then node_score b xb nv w i s else - ofN 100 * M) /\
  pw_shape P (length (lx_edges xb)) S /\ (forall e s t, (e < length (lx_edges xb))%nat -> (s < S)%nat -> (t < S)%nat -> pw_table P e s t = edge_joint_score g x w e s t).
Proof.
  destruct (unary_core_ok b xb nv (ei_node _ _ _ HX) w (el_size_ge w HW) Hn HS) as [U [M [E [O [R [C [M1 [V1 V2]]]]]]]].
  destruct (el_pairwise_ok w HW HD) as [d [EP [LD GP]]].
  exists U, (Pw3 (length (lx_edges xb)) S S d), M. rewrite (el_unary_eq w HW). repeat (split; [assumption|]). split; [repeat split; exact LD|exact GP].
Qed.
Lemma el_table_maximiser U P h : (forall e s t, (e < length (lx_edges xb))%nat -> (s < S)%nat -> (t < S)%nat -> pw_table P e s t = edge_joint_score g x w e s t) ->
  maximiser n S (lx_edges xb) U (pw_table P) h -> maximiser n S (lx_edges xb) U (edge_joint_score g x w) h.
Proof.
  intros GP [L1 L2]. split; [exact L1|]. intros z Hz.
  assert (Q : forall z, labelling n S z -> score n (lx_edges xb) U (pw_table P) (lab z) = score n (lx_edges xb) U (edge_joint_score g x w) (lab z)).
  { intros z' Hz'. apply score_ext; [exact (ni_edges _ _ _ (ei_node _ _ _ HX))|reflexivity|]. intros e i j He Hi Hj. apply GP; [exact He| |]; apply (labelling_lt n); assumption. }
  rewrite <- !Q by assumption. apply L2, Hz.
Qed.
(** it always returns something that extends [y] *)
Lemma el_latent_total solve y : labelling nv L y ->
  (forall U P, mat_ok U -> mrows U = n -> mcols U = S -> pw_shape P (length (lx_edges xb)) S ->
     exists h, solve U P (lx_edges xb) = Ok h /\ labelling n S h) ->
  exists h, el_latent solve g x y w = Ok h /\ labelling n S h /\ exists z, h = y ++ z.
Proof.
  intros HY HSO. destruct el_potentials as [U [P [M [EU [EP [OU [RU [CU [M1 [GU [SP GP]]]]]]]]]]].
  destruct (clamp_ok b nv (lx_hidden xb) U OU RU CU y HY Hn HS) as [U' [M' [E1 [O1 [R1 [C1 _]]]]]].
  destruct (HSO U' P O1 R1 C1 SP) as [h [E2 LH]].
  destruct (differs_ok y h) as [bd E3]; [rewrite (proj1 LH), (proj1 HY); unfold n; lia|].
  assert (E : el_latent solve g x y w = Ok (if bd then y ++ skipn (length y) h else h)).
  { unfold el_latent. fold b xb. rewrite EU. cbn [bind]. rewrite E1. cbn [bind]. rewrite EP. cbn [bind]. rewrite E2. cbn [bind]. rewrite E3. reflexivity. }
  exists (if bd then y ++ skipn (length y) h else h). split; [exact E|]. split; [|exact (el_latent_prefix _ _ _ _ _ _ E)].
  destruct bd; [|exact LH]. split.
  - rewrite app_length, skipn_length, (proj1 LH), (proj1 HY). unfold n. lia.
  - apply Forall_app. split; [apply Forall_impl with (2 := proj2 HY); intros s Hs; cbv beta in *; unfold S, ln_states; fold L; lia|].
    pose proof (proj2 LH) as F. rewrite <- (firstn_skipn (length y) h) in F. apply Forall_app in F. apply F.
Qed.

Variables B B' : Qc.
Hypothesis HB : forall i s, (i < n)%nat -> (s < S)%nat -> legal L nv i s = true -> - B <= node_score b xb nv w i s /\ node_score b xb nv w i s <= B.
Hypothesis HB' : forall e s t, (e < length (lx_edges xb))%nat -> (s < S)%nat -> (t < S)%nat -> - B' <= edge_joint_score g x w e s t /\ edge_joint_score g x w e s t <= B'.
Hypothesis B0 : 0 <= B.
Variable solve : solver.
Hypothesis HE : exact_on_tables solve n (lx_edges xb).
Lemma el_latent_best y h0 : labelling nv L y -> completes L K (lx_hidden xb) y h0 ->
  ofN n * (B + B) + ofN (length (lx_edges xb)) * (B' + B') < ofN 100 ->
  exists h, el_latent solve g x y w = Ok h /\ completes L K (lx_hidden xb) y h /\
    forall h', completes L K (lx_hidden xb) y h' -> edge_total g x nv w h' <= edge_total g x nv w h.
Proof.
  intros HY H0 SM. destruct el_potentials as [U [P [M [EU [EP [OU [RU [CU [M1 [GU [SP GP]]]]]]]]]]].
  destruct (clamp_ok b nv (lx_hidden xb) U OU RU CU y HY Hn HS) as [U' [M' [E1 [O1 [R1 [C1 _]]]]]].
  destruct (HE U' P S O1 R1 C1 SP HS) as [h [E2 MX]]. apply (el_table_maximiser _ _ _ GP) in MX.
  destruct (core_latent b nv (lx_hidden xb) (lx_edges xb) U (node_score b xb nv w) M (edge_joint_score g x w) (ni_edges _ _ _ (ei_node _ _ _ HX)) OU RU CU M1 GU B B' HB HB' y U' h h0 B0 HY H0 E1 MX SM) as [H1 H2].
  exists h. split; [|split; [exact H1|exact H2]]. unfold el_latent. fold b xb. rewrite EU. cbn [bind]. rewrite E1. cbn [bind]. rewrite EP. cbn [bind]. rewrite E2. cbn [bind].
  destruct (differs_ok y h) as [bd E3]; [rewrite (completes_length _ _ _ _ _ H1); lia|]. rewrite E3. cbn [bind].
  destruct (differs_cases _ _ _ E3) as [_ Q]. assert (Qb : bd = false). { apply Q. destruct H1 as [z [-> _]]. rewrite firstn_app, Nat.sub_diag. cbn [firstn]. rewrite app_nil_r. apply firstn_all. }
  rewrite Qb. reflexivity.
Qed.
Lemma el_inference_best h0 : two_level L K nv (lx_hidden xb) h0 ->
  ofN n * (B + B) + ofN (length (lx_edges xb)) * (B' + B') < ofN 100 ->
  exists h, el_inference solve g x w = Ok h /\ two_level L K nv (lx_hidden xb) h /\
    forall h', two_level L K nv (lx_hidden xb) h' -> edge_total g x nv w h' <= edge_total g x nv w h.
Proof.
  intros H0 SM. destruct el_potentials as [U [P [M [EU [EP [OU [RU [CU [M1 [GU [SP GP]]]]]]]]]]].
  destruct (HE U P S OU RU CU SP HS) as [h [E2 MX]]. apply (el_table_maximiser _ _ _ GP) in MX.
  destruct (core_inference b nv (lx_hidden xb) (lx_edges xb) U (node_score b xb nv w) M (edge_joint_score g x w) (ni_edges _ _ _ (ei_node _ _ _ HX)) M1 GU B B' HB HB' h h0 B0 H0 MX SM) as [H1 H2].
  exists h. split; [|split; [exact H1|exact H2]]. unfold el_inference. fold b xb. rewrite check_size_w_ok by exact HW. cbn [bind]. rewrite EU. cbn [bind]. rewrite EP. exact E2.
Qed.
Lemma el_laug_best hy R : length (ln_cw b) = L -> two_level L K nv (lx_hidden xb) hy -> 0 <= R -> (forall l, (l < L)%nat -> 0 <= get1 (ln_cw b) l /\ get1 (ln_cw b) l <= R) ->
  ofN n * (B + R + (B + R)) + ofN (length (lx_edges xb)) * (B' + B') < ofN 100 ->
  exists h, el_loss_augmented_inference solve g x hy w = Ok h /\ two_level L K nv (lx_hidden xb) h /\
    forall h', two_level L K nv (lx_hidden xb) h' -> edge_total g x nv w h' + visible_loss b hy h' <= edge_total g x nv w h + visible_loss b hy h.
Proof.
  intros HC HY R0 HR SM. destruct el_potentials as [U [P [M [EU [EP [OU [RU [CU [M1 [GU [SP GP]]]]]]]]]]].
  destruct (label_two_level b nv _ hy HY) as [Y1 _].
  destruct (ln_augment_all b hy U) as [U' [E1 [O1 [R1 [C1 _]]]]]; [rewrite HC; apply Y1|exact OU|rewrite (proj1 Y1), RU; unfold n; lia|exact CU|].
  rewrite RU in R1. destruct (HE U' P S O1 R1 C1 SP HS) as [h [E2 MX]]. apply (el_table_maximiser _ _ _ GP) in MX.
  destruct (core_laug b nv (lx_hidden xb) (lx_edges xb) U (node_score b xb nv w) M (edge_joint_score g x w) (ni_edges _ _ _ (ei_node _ _ _ HX)) OU RU CU M1 GU B B' HB HB' HC hy U' h B0 HY E1 MX R R0 HR SM) as [H1 H2].
  exists h. split; [|split; [exact H1|exact H2]]. unfold el_loss_augmented_inference. fold b xb. rewrite check_size_w_ok by exact HW. cbn [bind]. rewrite EU. cbn [bind]. rewrite EP. cbn [bind]. fold b S in E1. fold b S. rewrite E1. exact E2.
Qed.
End EL.
