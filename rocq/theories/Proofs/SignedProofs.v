(** Negative indices of (anti)symmetric edge features. *)
From Coq Require Import ZArith.
From Verif Require Import Spec.SignedSpec Spec.LossSpec Spec.SolverSpec Proofs.Arrays Proofs.SymProofs Proofs.EnergyProofs Proofs.GraphCRFProofs Proofs.LossProofs Proofs.CRFProofs Proofs.EdgeFeatureProofs.

Lemma wrap_meant n z : in_range n z -> wrap n z = Ok (meant n z) /\ (meant n z < n)%nat.
Proof.
  unfold in_range, wrap, meant. intro H. destruct (Z.ltb_spec z 0) as [L|L].
  - replace (0 <=? z)%Z with false by (symmetry; apply Z.leb_gt; lia). cbn [andb].
    replace (- Z.of_nat n <=? z)%Z with true by (symmetry; apply Z.leb_le; lia). split; [reflexivity|lia].
  - replace (0 <=? z)%Z with true by (symmetry; apply Z.leb_le; lia). cbn [andb].
    replace (z <? Z.of_nat n)%Z with true by (symmetry; apply Z.ltb_lt; lia). split; [reflexivity|lia].
Qed.
Lemma wrap_out n z : ~ in_range n z -> wrap n z = Err IndexError.
Proof.
  unfold in_range, wrap. intro H. destruct (Z.leb_spec 0 z), (Z.ltb_spec z (Z.of_nat n)), (Z.leb_spec (- Z.of_nat n) z), (Z.ltb_spec z 0); cbn [andb]; try reflexivity; exfalso; lia.
Qed.
Lemma sym_row_rows op k pw i pw' : sym_row op k pw i = Ok pw' -> mrows pw' = mrows pw.
Proof.
  unfold sym_row. destruct (index (mdat pw) i); [cbn [bind]|discriminate]. destruct (reshape _ k k); [cbn [bind]|discriminate].
  destruct (op _ _); [cbn [bind]|discriminate]. intro E. injection E as <-. reflexivity.
Qed.
Lemma rows_meant op k n : forall idx pw, Forall (in_range n) idx -> mrows pw = n -> sym_rows_z op k idx pw = sym_rows op k (map (meant n) idx) pw.
Proof.
  induction idx as [|z r IH]; intros pw HF HN; [reflexivity|]. apply Forall_cons_iff in HF. destruct HF as [H1 H2]. cbn [sym_rows_z map sym_rows].
  rewrite HN, (proj1 (wrap_meant n z H1)). cbn [bind]. destruct (sym_row op k pw (meant n z)) as [pw'|e] eqn:E; [cbn [bind]|reflexivity].
  apply IH; [exact H2|]. rewrite (sym_row_rows _ _ _ _ _ E). exact HN.
Qed.
Lemma sym_rows_rows op k : forall idx pw pw', sym_rows op k idx pw = Ok pw' -> mrows pw' = mrows pw.
Proof.
  induction idx as [|i r IH]; intros pw pw' E; cbn [sym_rows] in E; [injection E as <-; reflexivity|].
  destruct (sym_row op k pw i) as [p|e] eqn:E1; [cbn [bind] in E|discriminate]. rewrite (IH _ _ E). exact (sym_row_rows _ _ _ _ _ E1).
Qed.
Lemma joint_meant g x y : Forall (in_range (efz_edge_features g)) (efz_sym g ++ efz_anti g) -> efz_joint_feature g x y = ef_joint_feature (efz_meant g) x y.
Proof.
  intro HF. apply Forall_app in HF. destruct HF as [H1 H2]. unfold efz_joint_feature, ef_joint_feature, ef_joint_feature_core.
  change (ef_check_x (efz_meant g) x) with (ef_check_x (efz_plain g) x). destruct (ef_check_x (efz_plain g) x) as [[]|e] eqn:EC; [cbn [bind]|reflexivity].
  assert (HC : mcols (ex_edge_features x) = efz_edge_features g).
  { unfold ef_check_x in EC. destruct (mcols (ex_features x) =? _)%nat; [cbn in EC|discriminate EC]. destruct (length _ =? _)%nat; [cbn in EC|discriminate EC].
    destruct (Nat.eqb_spec (mcols (ex_edge_features x)) (efz_edge_features g)) as [Q|Q]; [exact Q|discriminate EC]. }
  change (ef_states (efz_meant g)) with (efz_states g). cbv zeta. destruct (ef_marginals _ _ _ y) as [[um pw]|e]; [cbn [bind]|reflexivity].
  destruct (mat_mul (mat_T (ex_edge_features x)) pw) as [pw1|e] eqn:E1; [cbn [bind]|reflexivity].
  assert (R1 : mrows pw1 = efz_edge_features g).
  { unfold mat_mul in E1. destruct (_ =? _)%nat; [cbn in E1|discriminate E1]. injection E1 as <-. cbn. exact HC. }
  rewrite (rows_meant mat_add _ _ _ pw1 H1 R1). change (ef_sym (efz_meant g)) with (map (meant (efz_edge_features g)) (efz_sym g)).
  destruct (sym_rows mat_add _ _ pw1) as [pw2|e] eqn:E2; [cbn [bind]|reflexivity].
  rewrite (rows_meant mat_sub _ _ _ pw2 H2); [reflexivity|]. rewrite (sym_rows_rows _ _ _ _ _ E2). exact R1.
Qed.

Definition plain_valid (g : efz_crf) (x : ef_x) (y : list nat) : Prop :=
  mcols (ex_features x) = efz_features g /\ length (ex_edges x) = mrows (ex_edge_features x) /\ mcols (ex_edge_features x) = efz_edge_features g /\
  labelling (mrows (ex_features x)) (efz_states g) y /\ graph_edges (mrows (ex_features x)) (ex_edges x).
Lemma plain_check g x y : plain_valid g x y -> ef_check_x (efz_plain g) x = Ok tt.
Proof.
  intros [A [B [C _]]]. unfold ef_check_x. cbn [efz_plain ef_features ef_edge_features]. rewrite A, B, C, !Nat.eqb_refl. reflexivity.
Qed.

(** rows up to the first index that is out of range *)
Lemma rows_out c op k n : sgn_op c op -> c * c = 1 -> forall idx pw, mat_ok pw -> mcols pw = (k * k)%nat -> mrows pw = n ->
  (Forall (in_range n) idx /\ exists pw', sym_rows_z op k idx pw = Ok pw' /\ mat_ok pw' /\ mrows pw' = n /\ mcols pw' = (k * k)%nat) \/
  (~ Forall (in_range n) idx /\ sym_rows_z op k idx pw = Err IndexError).
Proof.
  intros Hop Hc. induction idx as [|z r IH]; intros pw O C R; cbn [sym_rows_z].
  - left. split; [constructor|]. exists pw. auto.
  - assert (D : in_range n z \/ ~ in_range n z) by (unfold in_range; lia). rewrite R. destruct D as [D|D].
    + destruct (wrap_meant n z D) as [W1 W2]. rewrite W1. cbn [bind]. rewrite <- R in W2. destruct (sym_row_ok c op k pw _ Hop O C W2) as [p [E1 [O1 [R1 [C1 _]]]]]. rewrite R in E1. rewrite E1. cbn [bind].
      destruct (IH p O1 ltac:(congruence) ltac:(congruence)) as [[F1 F2]|[F1 F2]]; [left|right].
      * split; [constructor; assumption|exact F2].
      * split; [intro Q; apply F1; exact (Forall_inv_tail Q)|exact F2].
    + right. split; [intro Q; apply D; exact (Forall_inv Q)|]. rewrite (wrap_out n z D). reflexivity.
Qed.
Lemma joint_out g x y : plain_valid g x y -> ~ Forall (in_range (efz_edge_features g)) (efz_sym g ++ efz_anti g) -> efz_joint_feature g x (EDiscrete y) = Err IndexError.
Proof.
  intros HV HF. unfold efz_joint_feature. rewrite (plain_check g x y HV). cbn [bind]. destruct HV as [A [B [C [L E]]]].
  destruct (ef_marginals_discrete (efz_states g) _ _ y L E) as [um [pw [M1 [M2 [M3 [M4 [M5 _]]]]]]]. rewrite M1. cbn [bind].
  rewrite mat_mul_ok by (cbn; congruence). cbn [bind]. change (mrows (mat_T ?m)) with (mcols m). change (mcols (mat_T ?m)) with (mrows m).
  set (pw1 := mtab _ _ _). assert (R1 : mrows pw1 = efz_edge_features g) by exact C. assert (C1 : mcols pw1 = (efz_states g * efz_states g)%nat) by exact M5.
  destruct (rows_out 1 mat_add (efz_states g) (efz_edge_features g) sgn_add ltac:(ring) (efz_sym g) pw1 (mtab_ok _ _ _) C1 R1) as [[F1 [p [E1 [O1 [Rp Cp]]]]]|[F1 E1]]; rewrite E1; cbn [bind]; [|reflexivity].
  destruct (rows_out (-(1)) mat_sub (efz_states g) (efz_edge_features g) sgn_sub ltac:(ring) (efz_anti g) p O1 Cp Rp) as [[F2 _]|[F2 E2]]; [|rewrite E2; reflexivity].
  exfalso. apply HF. apply Forall_app. auto.
Qed.

(** a row that is both *)
Lemma joint_dead g x y f : plain_valid g x y -> Forall (in_range (efz_edge_features g)) (efz_sym g ++ efz_anti g) ->
  In f (map (meant (efz_edge_features g)) (efz_sym g)) -> In f (map (meant (efz_edge_features g)) (efz_anti g)) ->
  exists psi, efz_joint_feature g x (EDiscrete y) = Ok psi /\ length psi = (efz_states g * efz_features g + efz_edge_features g * (efz_states g * efz_states g))%nat /\
  forall s t, (s < efz_states g)%nat -> (t < efz_states g)%nat -> edge_weight (efz_states g) (efz_features g) psi f s t = 0.
Proof.
  intros HV HF I1 I2. rewrite joint_meant by exact HF. unfold ef_joint_feature, ef_joint_feature_core.
  change (ef_check_x (efz_meant g) x) with (ef_check_x (efz_plain g) x). rewrite (plain_check g x y HV). cbn [bind]. cbv zeta.
  change (ef_states (efz_meant g)) with (efz_states g). change (ef_sym (efz_meant g)) with (map (meant (efz_edge_features g)) (efz_sym g)).
  change (ef_anti (efz_meant g)) with (map (meant (efz_edge_features g)) (efz_anti g)).
  set (k := efz_states g) in *. set (D := efz_edge_features g) in *. destruct HV as [A [B [C [L E]]]].
  destruct (ef_marginals_discrete k _ _ y L E) as [um [pw [M1 [M2 [M3 [M4 [M5 _]]]]]]]. rewrite M1. cbn [bind].
  rewrite mat_mul_ok by (cbn; congruence). cbn [bind]. change (mrows (mat_T ?m)) with (mcols m). change (mcols (mat_T ?m)) with (mrows m).
  fold D in C. rewrite C, M5. set (pw1 := mtab D (k * k) _).
  assert (LT : forall l, Forall (in_range D) l -> Forall (fun i => (i < D)%nat) (map (meant D) l)).
  { intros l Hl. apply Forall_forall. intros i Hi. apply in_map_iff in Hi. destruct Hi as [z [<- Hz]]. apply wrap_meant. exact (proj1 (Forall_forall _ _) Hl z Hz). }
  apply Forall_app in HF. destruct HF as [HF1 HF2].
  destruct (sym_rows_ok 1 mat_add k (map (meant D) (efz_sym g)) pw1 sgn_add ltac:(ring) (mtab_ok _ _ _) eq_refl (LT _ HF1)) as [pw2 [E2 [O2 [R2 [C2 G2]]]]].
  rewrite E2. cbn [bind].
  destruct (sym_rows_ok (- (1)) mat_sub k (map (meant D) (efz_anti g)) pw2 sgn_sub ltac:(ring) O2 C2) as [pw3 [E3 [O3 [R3 [C3 G3]]]]].
  { rewrite R2. exact (LT _ HF2). }
  rewrite E3. cbn [bind]. rewrite mat_mul_ok by (cbn; congruence). cbn [bind]. change (mrows (mat_T ?m)) with (mcols m). change (mcols (mat_T ?m)) with (mrows m).
  eexists. split; [reflexivity|]. rewrite M3, A. set (acc := mtab k (efz_features g) _).
  assert (Hlen3 : length (ravel pw3) = (D * (k * k))%nat) by (rewrite ravel_ok_length by exact O3; rewrite R3, C3, R2, C2; reflexivity).
  assert (Hlen : length (ravel acc) = (k * efz_features g)%nat) by apply ravel_mtab_length.
  split; [rewrite app_length, Hlen, Hlen3; reflexivity|]. intros s t Hs Ht.
  assert (Hi : (f < D)%nat) by exact (proj1 (Forall_forall _ _) (LT _ HF1) f I1).
  unfold edge_weight. unfold get1. rewrite app_nth2 by (rewrite Hlen; lia). rewrite Hlen.
  replace (k * efz_features g + (f * (k * k) + (s * k + t)) - k * efz_features g)%nat with (f * (k * k) + (s * k + t))%nat by lia.
  fold (get1 (ravel pw3) (f * (k * k) + (s * k + t))).
  assert (E0 : pw3 = mtab D (k * k) (mget pw3)).
  { apply mat_eq_ext; auto; try apply mtab_ok; try (rewrite ?R3, ?R2, ?C3, ?C2; reflexivity).
    rewrite R3, R2, C3, C2. intros a b Ha Hb. rewrite mget_mtab; auto. }
  rewrite E0. unfold ravel, mtab, mdat. rewrite get1_concat_tab2 by (assumption || nia).
  rewrite G3 by (rewrite ?R2; assumption). rewrite (proj2 (existsb_eqb_In _ _) I2). unfold symv. rewrite !G2 by assumption. rewrite (proj2 (existsb_eqb_In _ _) I1). unfold symv. field. discriminate.
Qed.

(** what the checks let through *)
Lemma check_iff g : efz_check_declared g = Ok tt <-> Forall (fun z => (z < Z.of_nat (efz_edge_features g))%Z) (efz_sym g ++ efz_anti g) /\ (forall z, In z (efz_sym g) -> ~ In z (efz_anti g)).
Proof.
  unfold efz_check_declared. split.
  - intro H. destruct (forallb _ (efz_sym g ++ efz_anti g)) eqn:E1; [cbn [ensure bind] in H|discriminate H]. destruct (forallb _ (efz_sym g)) eqn:E2; [|discriminate H]. split.
    + apply Forall_forall. intros z Hz. apply Z.ltb_lt. exact (proj1 (forallb_forall _ _) E1 z Hz).
    + intros z Hz Q. assert (N := proj1 (forallb_forall _ _) E2 z Hz). cbn beta in N. replace (existsb (Z.eqb z) (efz_anti g)) with true in N; [discriminate N|].
      symmetry. apply existsb_exists. exists z. split; [exact Q|apply Z.eqb_refl].
  - intros [H1 H2]. replace (forallb _ (efz_sym g ++ efz_anti g)) with true.
    + cbn [ensure bind]. replace (forallb _ (efz_sym g)) with true; [reflexivity|]. symmetry. apply forallb_forall. intros z Hz. destruct (existsb (Z.eqb z) (efz_anti g)) eqn:E; [|reflexivity].
      exfalso. apply existsb_exists in E. destruct E as [z' [Q1 Q2]]. apply Z.eqb_eq in Q2. subst z'. exact (H2 z Hz Q1).
    + symmetry. apply forallb_forall. intros z Hz. apply Z.ltb_lt. exact (proj1 (Forall_forall _ _) H1 z Hz).
Qed.
Lemma meant_inj n z z' : (0 <= z < Z.of_nat n)%Z -> (0 <= z' < Z.of_nat n)%Z -> meant n z = meant n z' -> z = z'.
Proof. unfold meant. intros A B. destruct (Z.ltb_spec z 0), (Z.ltb_spec z' 0); lia. Qed.
Lemma check_nonneg g : Forall (fun z => (0 <= z)%Z) (efz_sym g ++ efz_anti g) -> efz_check_declared g = Ok tt -> ef_check_declared (efz_meant g) = Ok tt.
Proof.
  intros HN H. apply check_iff in H. destruct H as [H1 H2]. apply ef_check_declared_ok. unfold declared_ok. cbn [efz_meant ef_sym ef_anti ef_edge_features].
  assert (HB : forall z, In z (efz_sym g ++ efz_anti g) -> (0 <= z < Z.of_nat (efz_edge_features g))%Z).
  { intros z Hz. split; [exact (proj1 (Forall_forall _ _) HN z Hz)|exact (proj1 (Forall_forall _ _) H1 z Hz)]. }
  assert (LT : forall z, In z (efz_sym g ++ efz_anti g) -> (meant (efz_edge_features g) z < efz_edge_features g)%nat).
  { intros z Hz. apply wrap_meant. unfold in_range. specialize (HB z Hz). lia. }
  split; [|split].
  - apply Forall_forall. intros i Hi. apply in_map_iff in Hi. destruct Hi as [z [<- Hz]]. apply LT, in_or_app. auto.
  - apply Forall_forall. intros i Hi. apply in_map_iff in Hi. destruct Hi as [z [<- Hz]]. apply LT, in_or_app. auto.
  - intros i Hi Hi'. apply in_map_iff in Hi, Hi'. destruct Hi as [z [E Hz]], Hi' as [z' [E' Hz']]. apply (H2 z Hz). replace z with z'; [exact Hz'|].
    apply (meant_inj (efz_edge_features g)); [apply HB, in_or_app; auto|apply HB, in_or_app; auto|congruence].
Qed.

Definition ex61_x : ef_x := EFX (Mat 2 1 [[1]; [1]]) [(0, 1)%nat] (Mat 1 2 [[1; 1]]).
