(** Latent hinge loss; find_constraint_latent, score and objective; online subgradient steps. *)
From Coq Require Import ZArith.
From Verif Require Import Model.LatentGraph Model.LatentLearner Model.SubgradientLatent Spec.GraphSpec Spec.SolverSpec
  Proofs.Arrays Proofs.EnergyProofs Proofs.GraphCRFProofs Proofs.LossProofs Proofs.CRFProofs Proofs.LearnerProofs
  Proofs.SubgradientProofs Proofs.SubgradientProofs2
  Proofs.LatentProofs Proofs.LatentProofs2 Proofs.LatentProofs3 Spec.SubgradientSpec Spec.LatentSpec.

Section Generic.
Context {X Y : Type}.
Variables (T : task X Y) (E : X -> Y -> Y -> Prop) (d : nat).
(** the hinge loss of any completion bounds the latent one, and equals it for the best completion *)
Lemma latent_le_hinge w x y h v v' : E x y h ->
  (forall h h' z, E x y h -> E x y h' -> t_label T x z -> t_loss T h z = t_loss T h' z) ->
  is_latent_hinge T E w x y v -> is_hinge T w x h v' -> v <= v'.
Proof.
  intros HE HL [h0 [[B1 B2] [[z [Z1 Z2]] _]]] [_ H2]. specialize (H2 z Z1). rewrite <- Z2. unfold margin in *.
  rewrite (HL h0 h z B1 HE Z1). specialize (B2 h HE). qclra.
Qed.
Lemma latent_eq_hinge w x y h v : best_completion T E w x y h -> is_hinge T w x h v -> is_latent_hinge T E w x y v.
Proof. intros HB HH. exists h. split; assumption. Qed.
Lemma best_hinge_unique w x y h h' v v' :
  (forall h h' z, E x y h -> E x y h' -> t_label T x z -> t_loss T h z = t_loss T h' z) ->
  best_completion T E w x y h -> best_completion T E w x y h' -> is_hinge T w x h v -> is_hinge T w x h' v' -> v = v'.
Proof.
  intros HL B B' H H'. apply Qcle_antisym.
  - apply (latent_le_hinge w x y h' v v' (proj1 B') HL); [exists h; split; assumption|exact H'].
  - apply (latent_le_hinge w x y h v' v (proj1 B) HL); [exists h'; split; assumption|exact H].
Qed.
Lemma latent_unique w x y v v' :
  (forall h h' z, E x y h -> E x y h' -> t_label T x z -> t_loss T h z = t_loss T h' z) ->
  is_latent_hinge T E w x y v -> is_latent_hinge T E w x y v' -> v = v'.
Proof. intros HL [h [B H]] [h' [B' H']]. exact (best_hinge_unique w x y h h' v v' HL B B' H H'). Qed.

Variable m : lmodel X Y.
Hypothesis HR : sm_rescale (lm_s m) = false.
(** find_constraint_latent: [lo] is the loss charged *)
Lemma fcl_value p w : length w = d -> latent_exact m T E d w p ->
  exists h hh v, lm_latent m (fst p) (snd p) w = Ok h /\ best_completion T E w (fst p) (snd p) h /\
    sm_laug (lm_s m) (fst p) h w = Ok hh /\ t_label T (fst p) hh /\ is_hinge T w (fst p) h v /\ 0 <= v /\
    v = t_loss T h hh - dot w (vsub (t_feat T (fst p) h) (t_feat T (fst p) hh)) /\
    length (vsub (t_feat T (fst p) h) (t_feat T (fst p) hh)) = d /\
    forall lo, (if sm_tuple (lm_s m) hh then sm_closs (lm_s m) (snd p) hh else sm_loss (lm_s m) (snd p) hh) = Ok lo ->
      find_constraint_latent m (fst p) (snd p) w =
        Ok (hh, vsub (t_feat T (fst p) h) (t_feat T (fst p) hh), Qcmax (v + (lo - t_loss T h hh)) 0, lo).
Proof.
  intros Hw [[HX [HI HL]] [[h [E1 HB]] HA]]. specialize (HI h (proj1 HB)). specialize (HA h (proj1 HB)).
  destruct (find_constraint_hinge (lm_s m) T d (fst p) h w HI Hw HA) as [hh [v [_ [E2 [L1 [L2 [L3 L4]]]]]]].
  exists h, hh, v. destruct HI as [I1 [I2 I3]]. destruct (I3 _ I1) as [J1 [J2 _]]. destruct (I3 _ L1) as [K1 [K2 _]]. rewrite HR in J2, K2.
  assert (LD : length (vsub (t_feat T (fst p) h) (t_feat T (fst p) hh)) = d) by (rewrite vsub_length; congruence).
  repeat (split; [assumption|]). intros lo EL. unfold find_constraint_latent. rewrite E1. cbn [bind]. rewrite E2. cbn [bind]. rewrite J2. cbn [bind]. rewrite K2. cbn [bind].
  unfold np_vsub. rewrite J1, K1, Nat.eqb_refl. cbn [bind]. rewrite EL. cbn [bind]. rewrite np_dot_ok by congruence. cbn [bind].
  rewrite L2. set (dt := dot w _). set (a := t_loss T h hh). replace (a - dt + (lo - a)) with (lo - dt) by ring. reflexivity.
Qed.
Lemma objective_right C w S : length w = d -> S <> [] -> Forall (latent_exact m T E d w) S -> Forall (right_loss m T E) S ->
  exists vs, latent_objective m C w S = Ok (primal_value C w vs) /\ latent_hinges T E w S vs.
Proof.
  intros Hw HS HX HRL. unfold latent_objective.
  assert (A : exists cs, mapM (fun p => find_constraint_latent m (fst p) (snd p) w) S = Ok cs /\ length cs = length S /\
     latent_hinges T E w S (map (fun c => Qcmax (snd (fst c)) 0) cs)).
  { clear HS. induction S as [|p S IH]; [exists []; repeat split; constructor|]. apply Forall_cons_iff in HX. destruct HX as [X1 X2].
    apply Forall_cons_iff in HRL. destruct HRL as [R1 R2]. destruct (IH X2 R2) as [cs [E1 [E2 E3]]].
    destruct (fcl_value p w Hw X1) as [h [hh [v [F1 [F2 [F3 [F4 [F5 [F6 [F7 [_ F8]]]]]]]]]]].
    specialize (F8 _ (R1 h hh (proj1 F2) F4)). eexists. cbn [mapM]. rewrite F8. cbn [bind]. rewrite E1. cbn [bind]. split; [reflexivity|]. split; [cbn; congruence|].
    cbn [map fst snd]. constructor; [|exact E3]. cbv beta.
    assert (EQ : Qcmax (Qcmax (v + (t_loss T h hh - t_loss T h hh)) 0) 0 = v).
    { replace (v + (t_loss T h hh - t_loss T h hh)) with v by ring. unfold Qcmax at 2. destruct (Qcleb_spec v 0) as [Q|Q].
      - unfold Qcmax. destruct (Qcleb 0 0); apply Qcle_antisym; assumption.
      - unfold Qcmax. destruct (Qcleb_spec v 0); [qclra|reflexivity]. }
    rewrite EQ. exists h. split; assumption. }
  destruct A as [cs [E1 [E2 E3]]]. exists (map (fun c => Qcmax (snd (fst c)) 0) cs). rewrite E1. cbn [bind]. rewrite E2.
  destruct (Nat.eqb_spec (length S) 0) as [Z|Z]; [destruct S; [congruence|discriminate Z]|]. cbn [negb ensure bind]. split; [|exact E3].
  unfold primal_value. f_equal. ring.
Qed.

(** ** online steps *)
Lemma np_dot_sym a b : np_dot a b = np_dot b a.
Proof. unfold np_dot. rewrite (Nat.eqb_sym (length b)). destruct (Nat.eqb_spec (length a) (length b)); [rewrite dot_comm; reflexivity|reflexivity]. Qed.
Lemma online_completed prm n lr p st h st' b : lm_latent m (fst p) (snd p) (sg_w st) = Ok h ->
  (exists sl, lsg_online_step prm m n lr p st = Ok (st', sl) /\ b = Qcltb 0 sl) <->
  sg_online_step prm (lm_s m) n lr (fst p, h) st = Ok (st', b).
Proof.
  intros EL. unfold lsg_online_step, sg_online_step, find_constraint. cbn [fst snd]. rewrite EL, HR. cbn [bind].
  destruct (sm_laug (lm_s m) (fst p) h (sg_w st)) as [hh|e]; cbn [bind]; [|split; [intros [sl [Q _]]; discriminate Q|discriminate]].
  destruct (sm_joint (lm_s m) (fst p) hh None) as [fh|e]; cbn [bind].
  2:{ destruct (sm_joint (lm_s m) (fst p) h None) as [f|e']; cbn [bind]; (split; [intros [sl [Q _]]; discriminate Q|discriminate]). }
  destruct (sm_joint (lm_s m) (fst p) h None) as [f|e]; cbn [bind]; [|split; [intros [sl [Q _]]; discriminate Q|discriminate]].
  assert (VV : np_vadd (vscale (- (1)) fh) f = np_vsub f fh).
  { unfold np_vadd, np_vsub. rewrite vscale_length, (Nat.eqb_sym (length f)). destruct (Nat.eqb_spec (length fh) (length f)) as [L|L]; [|reflexivity].
    f_equal. apply vec_ext. { rewrite vadd_length, vsub_length, vscale_length; rewrite ?vscale_length; congruence. }
    intros i _. rewrite get1_vadd by (rewrite vscale_length; exact L). rewrite get1_vsub by congruence. rewrite get1_vscale. ring. }
  rewrite VV. destruct (np_vsub f fh) as [dl|e]; cbn [bind]; [|split; [intros [sl [Q _]]; discriminate Q|discriminate]].
  rewrite (np_dot_sym dl). destruct (np_dot (sg_w st) dl) as [dt|e]; cbn [bind].
  2:{ destruct (if sm_tuple (lm_s m) hh then _ else _); cbn [bind]; (split; [intros [sl [Q _]]; discriminate Q|discriminate]). }
  destruct (if sm_tuple (lm_s m) hh then _ else _) as [lo|e]; cbn [bind]; [|split; [intros [sl [Q _]]; discriminate Q|discriminate]].
  assert (SG : Qcltb 0 (- dt + lo) = Qcltb 0 (Qcmax (lo - dt) 0)).
  { replace (- dt + lo) with (lo - dt) by ring. unfold Qcmax. destruct (Qcleb_spec (lo - dt) 0) as [Q|Q]; [|reflexivity].
    destruct (Qcltb_spec 0 (lo - dt)); [qclra|]. destruct (Qcltb_spec 0 0); [qclra|reflexivity]. }
  destruct (solve_subgradient prm n lr dl st) as [s2|e]; cbn [bind]; [|split; [intros [sl [Q _]]; discriminate Q|discriminate]].
  split.
  - intros [sl [Q1 Q2]]. assert (s2 = st' /\ - dt + lo = sl) as [-> <-] by (split; congruence). rewrite Q2, SG. reflexivity.
  - intros Q. assert (s2 = st' /\ Qcltb 0 (Qcmax (lo - dt) 0) = b) as [-> <-] by (split; congruence). exists (- dt + lo). split; [reflexivity|]. symmetry. exact SG.
Qed.
Lemma online_latent_step prm n lr p st : 0 < sg_C prm -> (0 < n)%nat -> latent_exact m T E d (sg_w st) p -> can_step prm n (sg_t st) -> shaped d st -> sg_momentum prm = 0 ->
  exists h st' v g, best_completion T E (sg_w st) (fst p) (snd p) h /\ lsg_online_step prm m n lr p st = Ok (st', v) /\
    is_latent_hinge T E (sg_w st) (fst p) (snd p) v /\ shaped d st' /\ step_against prm n lr g st st' /\
    strong_subgradient T d (sg_C prm * ofN n) [(fst p, h)] (sg_w st) g.
Proof.
  intros HC Hn HX HS SH HM. assert (Hw : length (sg_w st) = d) by apply SH. destruct (fcl_value p (sg_w st) Hw HX) as [h [hh [v [F1 [F2 [F3 [F4 [F5 [F6 [F7 [LD _]]]]]]]]]]].
  destruct HX as [[_ [HI _]] [_ HA]]. specialize (HI h (proj1 F2)). specialize (HA h (proj1 F2)).
  destruct (online_step_dir T d prm HC (lm_s m) n lr (fst p, h) st Hn HI HA HS SH HM) as [st' [v' [g [A1 [A2 [A3 [A4 [A5 _]]]]]]]]. cbn [fst snd] in A2.
  assert (v' = v) by (eapply is_hinge_unique; eauto). subst v'.
  exists h, st', v, g. split; [exact F2|]. split.
  - destruct (proj2 (online_completed prm n lr p st h st' _ F1) A1) as [sl [Q _]]. rewrite Q. do 2 f_equal.
    unfold lsg_online_step in Q. rewrite F1 in Q. cbn [bind] in Q. rewrite F3 in Q. cbn [bind] in Q.
    destruct HI as [I1 [I2 I3]]. destruct (I3 _ I1) as [J1 [J2 _]]. destruct (I3 _ F4) as [K1 [K2 K3]]. rewrite HR in J2, K2.
    rewrite J2 in Q. cbn [bind] in Q. rewrite K2 in Q. cbn [bind] in Q. unfold np_vsub in Q. rewrite J1, K1, Nat.eqb_refl in Q. cbn [bind] in Q.
    rewrite np_dot_ok in Q by congruence. cbn [bind] in Q. rewrite K3 in Q. cbn [bind] in Q. apply bind_ok in Q. destruct Q as [s2 [_ Q]].
    assert (Q' : - dot (vsub (t_feat T (fst p) h) (t_feat T (fst p) hh)) (sg_w st) + t_loss T h hh = sl) by congruence.
    rewrite <- Q', F7, dot_comm. ring.
  - split; [exists h; split; assumption|]. split; [exact A3|]. split; [exact A4|exact A5].
Qed.
End Generic.

(** any n_jobs but 1 and -1 *)
Lemma lsg_jobs_fail {X Y} prm (m : lmodel X Y) w0 S L : (0 < sg_max_iter prm)%nat -> sg_jobs prm <> 1%Z -> sg_jobs prm <> (-1)%Z ->
  lsg_fit prm m w0 false S L = Err AttributeError.
Proof.
  intros HM H1 H2. unfold lsg_fit. cbn [bind fst snd]. destruct (sg_max_iter prm) as [|k]; [lia|]. cbn [lsg_loop]. unfold lsg_epoch.
  destruct (Z.eqb_spec (sg_jobs prm) 1); [contradiction|]. destruct (Z.eqb_spec (sg_jobs prm) (-1)); [contradiction|]. reflexivity.
Qed.
(** the last entry of the curve *)
Lemma lsg_curve_last {X Y} prm (m : lmodel X Y) w0 warm S L L' : lsg_fit prm m w0 warm S L = Ok L' ->
  exists w lr c o, sl_fitted L' = Some (w, lr, c ++ [o]) /\ latent_objective m (sg_C prm) w S = Ok o.
Proof.
  unfold lsg_fit. intros H. apply bind_ok in H. destruct H as [lc [_ H]]. apply bind_ok in H. destruct H as [[st c] [_ H]]. apply bind_ok in H. destruct H as [o [H1 H]].
  injection H as <-. cbn [sl_fitted]. exists (sg_self st), (fst lc), c, o. split; [reflexivity|exact H1].
Qed.

(** ** LatentGraphCRF *)
Lemma lg_latent_implements g solve cluster x y : laid_out g -> valid_x (lg_graph g) x -> labelling (mrows (gx_features x)) (lg_labels g) y ->
  Forall (fun c => (0 < c)%nat) (lg_counts g) ->
  latent_implements (lg_lmodel solve cluster g) (lg_task g) (lg_E g) (g_size (lg_graph g)) x y.
Proof.
  intros HG HX HY HC. assert (HL : length (lg_counts g) = lg_labels g) by apply HG. split; [|split].
  - exists (map (offset (lg_counts g)) y). apply first_explains. apply Forall_impl with (2 := proj2 HY). intros l Hl. rewrite HL. split; [exact Hl|].
    rewrite Forall_forall in HC. apply HC, nth_In. rewrite HL. exact Hl.
  - intros h Hh. apply lg_implements; [exact HG|exact HX|]. apply (explains_labelling _ _ y); [exact Hh|apply HY].
  - intros h h' z Hh H' _. cbn [t_loss lg_task]. unfold label_distance. rewrite (explains_length _ _ _ Hh), (explains_length _ _ _ H').
    unfold hamming. apply sumn_ext. intros i Hi. rewrite (block_owner _ _ _ (explains_lab _ _ _ Hh i Hi)), (block_owner _ _ _ (explains_lab _ _ _ H' i Hi)). reflexivity.
Qed.
Lemma counts_pos g y : laid_out g -> Forall (fun c => (0 < c)%nat) (lg_counts g) -> Forall (fun l => (l < lg_labels g)%nat) y ->
  Forall (fun l => (l < lg_labels g)%nat /\ (0 < nth l (lg_counts g) 0)%nat) y.
Proof.
  intros HG HC HY. apply Forall_impl with (2 := HY). intros l Hl. split; [exact Hl|]. rewrite Forall_forall in HC. apply HC, nth_In.
  destruct HG as [HL _]. rewrite HL. exact Hl.
Qed.
Lemma lg_latent_exact g solve cluster x y w U P B B' : laid_out g -> exact_solver_on solve (mrows (gx_features x)) (gx_edges x) ->
  valid_x (lg_graph g) x -> length w = g_size (lg_graph g) -> (0 < mrows (gx_features x))%nat -> labelling (mrows (gx_features x)) (lg_labels g) y ->
  Forall (fun c => (0 < c)%nat) (lg_counts g) -> g_potentials (lg_graph g) x w = Ok (U, P) ->
  (forall i s, (i < mrows (gx_features x))%nat -> (s < lg_states g)%nat -> - B <= mget U i s /\ mget U i s <= B) ->
  (forall s t, (s < lg_states g)%nat -> (t < lg_states g)%nat -> - B' <= mget P s t /\ mget P s t <= B') ->
  ofN (mrows (gx_features x)) * (B + B) + ofN (length (gx_edges x)) * (B' + B') < ofN 100 ->
  latent_exact (lg_lmodel solve cluster g) (lg_task g) (lg_E g) (g_size (lg_graph g)) w (x, y).
Proof.
  intros HG HE HX HW HN HY HC EP HU HP HSM. pose proof (counts_pos g y HG HC (proj2 HY)) as HCY.
  assert (HS : (0 < lg_states g)%nat).
  { destruct HY as [Y1 Y2]. destruct y as [|l y]; [cbn in Y1; lia|]. apply Forall_cons_iff in HCY. destruct HCY as [[C1 C2] _]. unfold lg_states.
    pose proof (first_in_block (lg_counts g) l ltac:(destruct HG as [HL _]; rewrite HL; exact C1) C2) as Q. apply block_states in Q. lia. }
  split; [apply lg_latent_implements; assumption|]. split.
  - destruct (latent_best_small g HG x w y HX HW (proj1 HY) HN HS solve U P B B' HE EP HCY HU HP HSM) as [h [E1 E2]]. exists h. split; [exact E1|].
    apply (best_is_completion g x w U P y h HX HW EP (proj1 HY)). exact E2.
  - intros h Hh. apply lg_exact_laug; try assumption. cbn [fst snd] in *. apply (explains_labelling _ _ y); [exact Hh|apply HY].
Qed.
(** score of perfect predictions *)
Lemma perfect_score nl nf k g solve cluster S w : lg_setup nl nf (SameStates k) = Ok g -> (2 <= k)%nat ->
  Forall (fun p => Forall (fun l => (l < nl)%nat) (snd p) /\ exists h, g_inference solve (lg_graph g) (fst p) w = Ok h /\ explains (lg_counts g) h (snd p)) S ->
  (0 < list_sum (map (fun p => length (snd p)) S))%nat ->
  latent_predict (lg_lmodel solve cluster g) w (map fst S) = Ok (map snd S) /\
  latent_score (lg_lmodel solve cluster g) w S =
    Ok (1 - ofN (list_sum (map (fun p => length (filter (fun l => negb (l =? 0)%nat) (snd p))) S)) / ofN (list_sum (map (fun p => length (snd p)) S))).
Proof.
  intros EG Hk HS HN. destruct (setup_laid_out _ _ _ _ EG) as [HG [E1 [E2 E3]]].
  assert (A : exists H, mapM (fun p => g_inference solve (lg_graph g) (fst p) w) S = Ok H /\ mapM (fun x => g_inference solve (lg_graph g) x w) (map fst S) = Ok H /\
     mapM (label_from_latent g) H = Ok (map snd S) /\
     mapM (fun q => lg_loss g (fst q) (snd q)) (combine (map snd S) H) = Ok (map (fun p => ofN (length (filter (fun l => negb (l =? 0)%nat) (snd p)))) S) /\
     mapM (fun p : graph_x * list nat => max_loss (lg_cw g) (snd p)) S = Ok (map (fun p => ofN (length (snd p))) S)).
  { clear HN. induction S as [|p S IH]; [exists []; repeat split; reflexivity|]. apply Forall_cons_iff in HS. destruct HS as [[P1 [h [P2 P3]]] HS].
    destruct (IH HS) as [H [A1 [A2 [A3 [A4 A5]]]]]. exists (h :: H). cbn [mapM map combine fst snd]. rewrite P2. cbn [bind]. rewrite A1, A2. cbn [bind].
    rewrite (proj2 (label_explains g HG _ _) P3). cbn [bind]. rewrite A3. cbn [bind].
    rewrite (same_states_charge nl nf k g (length (snd p)) (snd p) h EG Hk ltac:(split; [reflexivity|exact P1]) P3). cbn [bind]. rewrite A4. cbn [bind].
    unfold lg_cw at 1. rewrite (max_loss_weighted (length (snd p)) (lg_labels g)) by first [apply repeat_length|split; [reflexivity|rewrite E1; exact P1]]. cbn [bind].
    rewrite A5. cbn [bind]. repeat split; try reflexivity.
    - do 2 f_equal. clear. generalize (snd p) as y. induction y as [|l y IH]; [reflexivity|]. cbn [length]. rewrite sumn_S_l. cbn [filter].
      change (fun i => if (lab (l :: y) (Datatypes.S i) =? 0)%nat then 0 else 1) with (fun i => if (lab y i =? 0)%nat then 0 else 1). rewrite IH.
      unfold lab. cbn [nth]. destruct (l =? 0)%nat; cbn [negb length]; rewrite ?ofN_S; ring.
    - do 2 f_equal. rewrite <- (Qcmult_1_r (ofN (length (snd p)))), <- sumn_const. apply sumn_ext. intros i Hi. apply get1_ones.
      rewrite E1. rewrite Forall_forall in P1. apply P1. apply nth_In. exact Hi. }
  destruct A as [H [A1 [A2 [A3 [A4 A5]]]]].
  assert (SUM : forall f : graph_x * list nat -> nat, lsum (map (fun p => ofN (f p)) S) = ofN (list_sum (map f S))).
  { intros f. clear. induction S as [|p S IH]; [reflexivity|]. cbn [map lsum]. change (list_sum (f p :: map f S)) with (f p + list_sum (map f S))%nat. rewrite ofN_plus, <- IH. reflexivity. }
  split.
  - unfold latent_predict. cbn [lg_lmodel lm_s lg_smodel sm_inference lm_label]. rewrite A2. cbn [bind]. exact A3.
  - unfold latent_score. cbn [lg_lmodel lm_s lg_smodel sm_inference sm_tuple sm_loss lm_max_loss]. rewrite A1. cbn [bind]. rewrite A4. cbn [bind]. rewrite A5. cbn [bind].
    rewrite !SUM. destruct (Qceqb_spec (ofN (list_sum (map (fun p : graph_x * list nat => length (snd p)) S))) 0) as [Z|Z]; [|reflexivity].
    exfalso. revert Z. apply ofN_neq0. lia.
Qed.
