From Verif Require Import Model.EdgeFeature Spec.EdgeSpec Spec.LossSpec Spec.SolverSpec
  Proofs.Arrays Proofs.SymProofs Proofs.EnergyProofs Proofs.GraphCRFProofs Proofs.LossProofs Proofs.CRFProofs.

Lemma list_set_length {A} (l : list A) i v : length (list_set l i v) = length l.
Proof. revert i. induction l; intros [|i]; simpl; auto. Qed.
Lemma nth_list_set {A} (l : list A) i j v d : (i < length l)%nat ->
  nth j (list_set l i v) d = if (j =? i)%nat then v else nth j l d.
Proof.
  revert i j. induction l; intros i j H; [simpl in H; lia|]. destruct i as [|i], j as [|j]; simpl; auto.
  apply IHl. simpl in H. lia.
Qed.
Lemma list_set_Forall {A} (P : A -> Prop) l i v : Forall P l -> P v -> Forall P (list_set l i v).
Proof. intros H. revert i. induction H; intros [|i] Hv; simpl; constructor; auto. Qed.

(** ** symmetrisation *)
Definition sgn_op (c : Qc) (op : mat -> mat -> res mat) : Prop :=
  forall a b, mrows a = mrows b -> mcols a = mcols b ->
    op a b = Ok (mtab (mrows a) (mcols a) (fun i j => mget a i j + c * mget b i j)).
Lemma sgn_add : sgn_op 1 mat_add.
Proof.
  intros a b H1 H2. unfold mat_add, mat_same. rewrite H1, H2, !Nat.eqb_refl. simpl. apply f_equal. unfold mtab. apply f_equal.
  apply tab2_ext. intros. ring.
Qed.
Lemma sgn_sub : sgn_op (- (1)) mat_sub.
Proof.
  intros a b H1 H2. unfold mat_sub, mat_same. rewrite H1, H2, !Nat.eqb_refl. simpl. apply f_equal. unfold mtab. apply f_equal.
  apply tab2_ext. intros. ring.
Qed.

Definition symv (c : Qc) (k : nat) (pw : mat) (f s t : nat) : Qc :=
  (mget pw f (s * k + t) + c * mget pw f (t * k + s)) / (1 + 1).

Lemma sym_row_ok c op k pw i : sgn_op c op -> mat_ok pw -> mcols pw = (k * k)%nat -> (i < mrows pw)%nat ->
  exists pw', sym_row op k pw i = Ok pw' /\ mat_ok pw' /\ mrows pw' = mrows pw /\ mcols pw' = mcols pw /\
    forall f s t, (f < mrows pw)%nat -> (s < k)%nat -> (t < k)%nat ->
      mget pw' f (s * k + t) = if (f =? i)%nat then symv c k pw f s t else mget pw f (s * k + t).
Proof.
  intros Hop [HL HF] Hc Hi. unfold sym_row.
  rewrite (index_ok _ _ []) by (rewrite HL; exact Hi). cbn [bind].
  assert (Hrow : length (nth i (mdat pw) []) = (k * k)%nat).
  { rewrite <- Hc. rewrite Forall_forall in HF. apply HF, nth_In. rewrite HL. exact Hi. }
  rewrite reshape_ok by exact Hrow. cbn [bind].
  rewrite Hop by reflexivity. cbn [bind].
  eexists. split; [reflexivity|]. split.
  { split; cbn [mdat mrows mcols]; [rewrite list_set_length; exact HL|]. apply list_set_Forall; [exact HF|].
    rewrite map_length, ravel_mtab_length. simpl. congruence. }
  split; [reflexivity|]. split; [reflexivity|]. intros f s t Hf Hs Ht.
  unfold mget at 1. unfold get2. cbn [mdat]. rewrite nth_list_set by (rewrite HL; exact Hi).
  destruct (Nat.eqb_spec f i) as [->|Hfi]; [|reflexivity].
  rewrite (nth_map_in (fun v => v / (1 + 1)) _ _ 0) by (rewrite ravel_mtab_length; simpl; nia).
  unfold symv. f_equal. fold (get1 (ravel (mtab (mrows (mtab k k (fun i0 j : nat => get1 (nth i (mdat pw) []) (i0 * k + j))))
     (mcols (mtab k k (fun i0 j : nat => get1 (nth i (mdat pw) []) (i0 * k + j))))
     (fun i0 j : nat => mget (mtab k k (fun i1 j0 : nat => get1 (nth i (mdat pw) []) (i1 * k + j0))) i0 j +
       c * mget (mat_T (mtab k k (fun i1 j0 : nat => get1 (nth i (mdat pw) []) (i1 * k + j0)))) i0 j))) (s * k + t)).
  unfold ravel. cbn [mrows mcols mtab mdat]. rewrite get1_concat_tab2 by assumption.
  change (Mat k k (tab2 k k (fun i0 j : nat => get1 (nth i (mdat pw) []) (i0 * k + j))))
    with (mtab k k (fun i0 j : nat => get1 (nth i (mdat pw) []) (i0 * k + j))).
  rewrite mget_T by (simpl; assumption). rewrite !mget_mtab by assumption. reflexivity.
Qed.

Lemma symv_idem c k pw pw' f s t : c * c = 1 -> (s < k)%nat -> (t < k)%nat ->
  (forall s t, (s < k)%nat -> (t < k)%nat -> mget pw' f (s * k + t) = symv c k pw f s t) ->
  symv c k pw' f s t = symv c k pw f s t.
Proof.
  intros Hc Hs Ht H. unfold symv at 1. rewrite !H by assumption. unfold symv.
  set (a := mget pw f (s * k + t)). set (b := mget pw f (t * k + s)).
  replace ((a + c * b) / (1 + 1) + c * ((b + c * a) / (1 + 1))) with ((a + c * b + c * b + (c * c) * a) / (1 + 1)) by (field; discriminate).
  rewrite Hc. field. discriminate.
Qed.

Lemma sym_rows_ok c op k idx pw : sgn_op c op -> c * c = 1 -> mat_ok pw -> mcols pw = (k * k)%nat ->
  Forall (fun i => (i < mrows pw)%nat) idx ->
  exists pw', sym_rows op k idx pw = Ok pw' /\ mat_ok pw' /\ mrows pw' = mrows pw /\ mcols pw' = mcols pw /\
    forall f s t, (f < mrows pw)%nat -> (s < k)%nat -> (t < k)%nat ->
      mget pw' f (s * k + t) = if existsb (Nat.eqb f) idx then symv c k pw f s t else mget pw f (s * k + t).
Proof.
  intros Hop Hcc. revert pw. induction idx as [|i r IH]; intros pw Hok Hc HF.
  - exists pw. simpl. auto.
  - inversion HF as [|? ? Hi Hr]; subst. destruct (sym_row_ok c op k pw i Hop Hok Hc Hi) as [p1 [E1 [O1 [R1 [C1 G1]]]]].
    destruct (IH p1 O1 ltac:(congruence)) as [p2 [E2 [O2 [R2 [C2 G2]]]]]; [rewrite R1; exact Hr|].
    exists p2. cbn [sym_rows]. rewrite E1. cbn [bind]. split; [exact E2|]. split; [exact O2|].
    split; [congruence|]. split; [congruence|]. intros f s t Hf Hs Ht.
    rewrite G2 by (rewrite ?R1; assumption). cbn [existsb].
    destruct (Nat.eqb_spec f i) as [->|Hfi]; cbn [orb].
    + assert (H : forall s t, (s < k)%nat -> (t < k)%nat -> mget p1 i (s * k + t) = symv c k pw i s t).
      { intros s' t' Hs' Ht'. rewrite G1 by assumption. rewrite Nat.eqb_refl. reflexivity. }
      destruct (existsb (Nat.eqb i) r); [apply symv_idem; assumption|apply H; assumption].
    + assert (H : forall s t, (s < k)%nat -> (t < k)%nat -> mget p1 f (s * k + t) = mget pw f (s * k + t)).
      { intros s' t' Hs' Ht'. rewrite G1 by assumption. apply Nat.eqb_neq in Hfi. rewrite Hfi. reflexivity. }
      destruct (existsb (Nat.eqb f) r); [unfold symv; rewrite !H by assumption; reflexivity|apply H; assumption].
Qed.

(** ** potentials *)
Lemma ef_unary_core_ok g feats w : mcols feats = ef_features g -> length w = ef_size g ->
  exists U, ef_unary_core g feats w = Ok U /\ mat_ok U /\ mrows U = mrows feats /\ mcols U = ef_states g /\
    forall i s, (i < mrows feats)%nat -> (s < ef_states g)%nat ->
      mget U i s = unary_score (ef_features g) w (mget feats i) s.
Proof.
  intros Hf Hw. unfold ef_unary_core. unfold ef_size in Hw.
  rewrite reshape_ok by (rewrite firstn_length; lia). cbn [bind].
  rewrite mat_mul_ok by (simpl; exact Hf).
  eexists. split; [reflexivity|]. split; [apply mtab_ok|]. simpl. split; auto. split; auto.
  intros i s Hi Hs. rewrite mget_mtab by assumption. unfold unary_score. rewrite Hf.
  apply sumn_ext. intros f Hf'. rewrite mget_T by (simpl; assumption). rewrite mget_mtab by assumption.
  rewrite get1_firstn by nia. ring.
Qed.

Lemma ef_pairwise_core_ok g ef w : mcols ef = ef_edge_features g -> (0 < ef_edge_features g)%nat ->
  length w = ef_size g ->
  exists d, ef_pairwise_core g ef w = Ok (Pw3 (mrows ef) (ef_states g) (ef_states g) d) /\ length d = mrows ef /\
    forall e s t, (e < mrows ef)%nat -> (s < ef_states g)%nat -> (t < ef_states g)%nat ->
      get2 (nth e d []) s t = edge_score (ef_edge_features g) (ef_states g) (ef_features g) w (mget ef e) s t.
Proof.
  intros Hc HD Hw. unfold ef_pairwise_core. unfold ef_size in Hw.
  replace (ef_edge_features g =? 0)%nat with false by (symmetry; apply Nat.eqb_neq; lia).
  assert (HL : length (skipn (ef_states g * ef_features g) w) = (ef_edge_features g * (ef_states g * ef_states g))%nat)
    by (rewrite skipn_length; lia).
  rewrite HL. rewrite (Nat.mul_comm (ef_edge_features g) (ef_states g * ef_states g)), Nat.div_mul by lia.
  rewrite reshape_ok by (rewrite HL; reflexivity). cbn [bind].
  rewrite mat_mul_ok by (simpl; exact Hc). cbn [bind mrows mcols mtab].
  rewrite ensure_true by apply Nat.eqb_refl. cbn [bind].
  eexists. split; [reflexivity|]. split; [rewrite map_length, seq_length; reflexivity|].
  intros e s t He Hs Ht. rewrite (nth_map_seq _ _ _ []) by exact He.
  rewrite get2_tab2 by assumption.
  change (Mat (mrows ef) (ef_states g * ef_states g) (tab2 (mrows ef) (ef_states g * ef_states g) ?f)) with (mtab (mrows ef) (ef_states g * ef_states g) f).
  rewrite mget_mtab by (assumption || nia). unfold edge_score. rewrite Hc. apply sumn_ext. intros f Hf. f_equal.
  rewrite mget_mtab by (assumption || nia). rewrite get1_skipn. unfold edge_weight. reflexivity.
Qed.

(** ** joint feature *)
Definition eff_score (g : ef_crf) (w : list Qc) (feat : nat -> Qc) (s t : nat) : Qc :=
  sumn (ef_edge_features g) (fun f => feat f *
     effective_weight (ef_states g) (ef_features g) (ef_sym g) (ef_anti g) w f s t).

Definition declared_ok (g : ef_crf) : Prop :=
  Forall (fun i => (i < ef_edge_features g)%nat) (ef_sym g) /\
  Forall (fun i => (i < ef_edge_features g)%nat) (ef_anti g) /\
  (forall i, In i (ef_sym g) -> ~ In i (ef_anti g)).

Lemma existsb_eqb_In f l : existsb (Nat.eqb f) l = true <-> In f l.
Proof.
  rewrite existsb_exists. split.
  - intros [x [H E]]. apply Nat.eqb_eq in E. subst. exact H.
  - intro H. exists f. rewrite Nat.eqb_refl. auto.
Qed.
Lemma ef_check_declared_ok g : ef_check_declared g = Ok tt <-> declared_ok g.
Proof.
  unfold ef_check_declared, declared_ok. split.
  - intro H. destruct (forallb _ (ef_sym g ++ ef_anti g)) eqn:E1; [|discriminate H]. cbn [ensure bind] in H.
    apply ensure_ok in H. apply forallb_lt_Forall in E1. apply Forall_app in E1. destruct E1 as [A B].
    split; [exact A|]. split; [exact B|]. intros i Hi Ha. rewrite forallb_forall in H. specialize (H i Hi).
    apply existsb_eqb_In in Ha. rewrite Ha in H. discriminate H.
  - intros [A [B C]]. rewrite ensure_true by (apply forallb_lt_Forall, Forall_app; auto). cbn [bind].
    apply ensure_true. apply forallb_forall. intros i Hi. destruct (existsb (Nat.eqb i) (ef_anti g)) eqn:E; [|reflexivity].
    apply existsb_eqb_In in E. exfalso. eapply C; eauto.
Qed.

Lemma swap_adjoint c k (a p : nat -> nat -> Qc) :
  sumn k (fun s => sumn k (fun t => a s t * ((p s t + c * p t s) / (1 + 1)))) =
  sumn k (fun s => sumn k (fun t => ((a s t + c * a t s) / (1 + 1)) * p s t)).
Proof.
  assert (H2 : (1 + 1 : Qc) <> 0) by discriminate.
  transitivity (sumn k (fun s => sumn k (fun t => a s t * p s t / (1 + 1))) +
                sumn k (fun s => sumn k (fun t => c * a s t * p t s / (1 + 1)))).
  - rewrite <- sumn_plus. apply sumn_ext. intros s Hs. rewrite <- sumn_plus. apply sumn_ext. intros t Ht. field. exact H2.
  - rewrite (sumn_swap k k (fun s t => c * a s t * p t s / (1 + 1))).
    rewrite <- sumn_plus. apply sumn_ext. intros s Hs. rewrite <- sumn_plus. apply sumn_ext. intros t Ht. field. exact H2.
Qed.

Lemma ravel_ok_length m : mat_ok m -> length (ravel m) = (mrows m * mcols m)%nat.
Proof.
  intro H. assert (E : m = mtab (mrows m) (mcols m) (mget m)).
  { apply mat_eq_ext; auto; try apply mtab_ok. intros i j Hi Hj. rewrite mget_mtab; auto. }
  rewrite E at 1. apply ravel_mtab_length.
Qed.
Lemma dot_ravel m v : mat_ok m -> length v = (mrows m * mcols m)%nat ->
  dot v (ravel m) = sumn (mrows m) (fun i => sumn (mcols m) (fun j => get1 v (i * mcols m + j) * mget m i j)).
Proof.
  intros H Hv. assert (E : m = mtab (mrows m) (mcols m) (mget m)).
  { apply mat_eq_ext; auto; try apply mtab_ok. intros i j Hi Hj. rewrite mget_mtab; auto. }
  rewrite E at 1. unfold ravel, mtab, mdat. rewrite dot_concat_tab2 by exact Hv. reflexivity.
Qed.

Lemma ef_core_dot g feats edges ef y um pw w :
  ef_marginals (ef_states g) (mrows feats) edges y = Ok (um, pw) ->
  declared_ok g -> mcols feats = ef_features g -> mcols ef = ef_edge_features g ->
  mrows um = mrows feats -> mcols um = ef_states g ->
  mrows pw = mrows ef -> mcols pw = (ef_states g * ef_states g)%nat ->
  length w = ef_size g ->
  exists psi, ef_joint_feature_core g feats edges ef y = Ok psi /\ length psi = ef_size g /\
    (forall i s t, In i (ef_sym g) -> (s < ef_states g)%nat -> (t < ef_states g)%nat ->
       edge_weight (ef_states g) (ef_features g) psi i s t = edge_weight (ef_states g) (ef_features g) psi i t s) /\
    (forall i s t, In i (ef_anti g) -> (s < ef_states g)%nat -> (t < ef_states g)%nat ->
       edge_weight (ef_states g) (ef_features g) psi i s t = - edge_weight (ef_states g) (ef_features g) psi i t s) /\
    dot w psi =
      sumn (mrows feats) (fun i => sumn (ef_states g) (fun s => mget um i s * unary_score (ef_features g) w (mget feats i) s)) +
      sumn (mrows ef) (fun e => sumn (ef_states g) (fun s => sumn (ef_states g) (fun t =>
         mget pw e (s * ef_states g + t) * eff_score g w (mget ef e) s t))).
Proof.
  intros Hm [Hs1 [Hs2 Hs3]] Hf Hd Hur Huc Hpr Hpc Hw. unfold ef_joint_feature_core. rewrite Hm. cbn [bind].
  set (k := ef_states g) in *. set (D := ef_edge_features g) in *.
  rewrite mat_mul_ok by (simpl; congruence). cbn [bind]. change (mrows (mat_T ef)) with (mcols ef). change (mcols (mat_T ef)) with (mrows ef).
  rewrite Hd, Hpc. set (pw1 := mtab D (k * k) _).
  destruct (sym_rows_ok 1 mat_add k (ef_sym g) pw1 sgn_add ltac:(ring) (mtab_ok _ _ _) eq_refl Hs1) as [pw2 [E2 [O2 [R2 [C2 G2]]]]].
  rewrite E2. cbn [bind].
  destruct (sym_rows_ok (- (1)) mat_sub k (ef_anti g) pw2 sgn_sub ltac:(ring) O2 C2) as [pw3 [E3 [O3 [R3 [C3 G3]]]]].
  { rewrite R2. exact Hs2. }
  rewrite E3. cbn [bind]. rewrite mat_mul_ok by (simpl; congruence). cbn [bind].
  change (mrows (mat_T um)) with (mcols um). change (mcols (mat_T um)) with (mrows um).
  eexists. split; [reflexivity|]. rewrite Huc, Hf, Hur.
  set (acc := mtab k (ef_features g) _).
  assert (Hlen3 : length (ravel pw3) = (D * (k * k))%nat).
  { rewrite ravel_ok_length by exact O3. rewrite R3, C3, R2, C2. reflexivity. }
  assert (Hlen : length (ravel acc) = (k * ef_features g)%nat) by apply ravel_mtab_length.
  split. { rewrite app_length, Hlen, Hlen3. unfold ef_size. fold k D. reflexivity. }
  assert (Hent : forall i s t, (i < D)%nat -> (s < k)%nat -> (t < k)%nat ->
     edge_weight k (ef_features g) (ravel acc ++ ravel pw3) i s t = mget pw3 i (s * k + t)).
  { intros i s t Hi Hs Ht. unfold edge_weight. unfold get1. rewrite app_nth2 by (rewrite Hlen; lia). rewrite Hlen.
    replace (k * ef_features g + (i * (k * k) + (s * k + t)) - k * ef_features g)%nat with (i * (k * k) + (s * k + t))%nat by lia.
    fold (get1 (ravel pw3) (i * (k * k) + (s * k + t))).
    assert (E : pw3 = mtab D (k * k) (mget pw3)).
    { apply mat_eq_ext; auto; try apply mtab_ok; try (rewrite ?R3, ?R2, ?C3, ?C2; reflexivity).
      rewrite R3, R2, C3, C2. intros a b Ha Hb. rewrite mget_mtab; auto. }
    rewrite E at 1. unfold ravel, mtab, mdat. rewrite get1_concat_tab2 by (assumption || nia). reflexivity. }
  assert (Gall : forall f s t, (f < D)%nat -> (s < k)%nat -> (t < k)%nat ->
     mget pw3 f (s * k + t) = if existsb (Nat.eqb f) (ef_sym g) then symv 1 k pw1 f s t
        else if existsb (Nat.eqb f) (ef_anti g) then symv (- (1)) k pw1 f s t else mget pw1 f (s * k + t)).
  { intros f s t Hfd Hs Ht. rewrite G3 by (rewrite ?R2; assumption).
    destruct (existsb (Nat.eqb f) (ef_sym g)) eqn:Es.
    - destruct (existsb (Nat.eqb f) (ef_anti g)) eqn:Ea.
      { exfalso. apply existsb_eqb_In in Es, Ea. eapply Hs3; eauto. }
      rewrite G2 by assumption. rewrite Es. reflexivity.
    - destruct (existsb (Nat.eqb f) (ef_anti g)) eqn:Ea.
      + unfold symv. rewrite !G2 by assumption. rewrite Es. reflexivity.
      + rewrite G2 by assumption. rewrite Es. reflexivity. }
  split; [|split].
  - intros i s t Hi Hs Ht. assert (i < D)%nat by (rewrite Forall_forall in Hs1; auto).
    rewrite !Hent by assumption. rewrite !Gall by assumption. apply existsb_eqb_In in Hi. rewrite Hi. unfold symv. f_equal. ring.
  - intros i s t Hi Hs Ht. assert (i < D)%nat by (rewrite Forall_forall in Hs2; auto).
    rewrite !Hent by assumption. rewrite !Gall by assumption.
    destruct (existsb (Nat.eqb i) (ef_sym g)) eqn:Es. { exfalso. apply existsb_eqb_In in Es. eapply Hs3; eauto. }
    apply existsb_eqb_In in Hi. rewrite Hi. unfold symv. field. discriminate.
  - rewrite <- (firstn_skipn (k * ef_features g) w) at 1. unfold ef_size in Hw. fold k D in Hw.
    rewrite dot_app by (rewrite firstn_length, Hlen; lia). f_equal.
    + unfold acc, ravel, mtab, mdat. rewrite dot_concat_tab2 by (rewrite firstn_length; lia).
      unfold unary_score.
      transitivity (sumn k (fun s => sumn (mrows feats) (fun i => sumn (ef_features g) (fun f =>
        mget um i s * (get1 w (s * ef_features g + f) * mget feats i f))))).
      * apply sumn_ext. intros s Hs. rewrite sumn_swap. apply sumn_ext. intros f Hf'.
        rewrite <- sumn_mult_l. apply sumn_ext. intros i Hi.
        rewrite mget_T by (rewrite ?Huc, ?Hur; assumption). rewrite get1_firstn by nia. ring.
      * rewrite sumn_swap. apply sumn_ext. intros i Hi. apply sumn_ext. intros s Hs. rewrite sumn_mult_l. reflexivity.
    + rewrite dot_ravel by (try exact O3; rewrite skipn_length, R3, C3, R2, C2; simpl; lia).
      rewrite R3, C3, R2, C2. change (mrows pw1) with D. change (mcols pw1) with (k * k)%nat.
      transitivity (sumn D (fun f => sumn k (fun s => sumn k (fun t =>
         effective_weight k (ef_features g) (ef_sym g) (ef_anti g) w f s t * mget pw1 f (s * k + t))))).
      * apply sumn_ext. intros f Hfd. rewrite sumn_mul.
        transitivity (sumn k (fun s => sumn k (fun t => edge_weight k (ef_features g) w f s t * mget pw3 f (s * k + t)))).
        { apply sumn_ext. intros s Hs. apply sumn_ext. intros t Ht. rewrite get1_skipn. reflexivity. }
        rewrite (sumn_ext k _ (fun s => sumn k (fun t => edge_weight k (ef_features g) w f s t *
           (if existsb (Nat.eqb f) (ef_sym g) then symv 1 k pw1 f s t
            else if existsb (Nat.eqb f) (ef_anti g) then symv (- (1)) k pw1 f s t else mget pw1 f (s * k + t))))).
        2:{ intros s Hs. apply sumn_ext. intros t Ht. rewrite Gall by assumption. reflexivity. }
        unfold effective_weight. destruct (existsb (Nat.eqb f) (ef_sym g)).
        { unfold symv. rewrite (swap_adjoint 1 k (edge_weight k (ef_features g) w f) (fun s t => mget pw1 f (s * k + t))).
          apply sumn_ext. intros s Hs. apply sumn_ext. intros t Ht. unfold Qcdiv. ring. }
        destruct (existsb (Nat.eqb f) (ef_anti g)).
        { unfold symv. rewrite (swap_adjoint (- (1)) k (edge_weight k (ef_features g) w f) (fun s t => mget pw1 f (s * k + t))).
          apply sumn_ext. intros s Hs. apply sumn_ext. intros t Ht. unfold Qcdiv. ring. }
        reflexivity.
      * transitivity (sumn D (fun f => sumn (mrows ef) (fun e => sumn k (fun s => sumn k (fun t =>
           mget ef e f * effective_weight k (ef_features g) (ef_sym g) (ef_anti g) w f s t * mget pw e (s * k + t)))))).
        { apply sumn_ext. intros f Hfd. rewrite (sumn_swap (mrows ef)). apply sumn_ext. intros s Hs.
          rewrite (sumn_swap (mrows ef)). apply sumn_ext. intros t Ht. unfold pw1. rewrite mget_mtab by (assumption || nia).
          rewrite <- sumn_mult_l. apply sumn_ext. intros e He. rewrite mget_T by (rewrite ?Hd; assumption). ring. }
        rewrite sumn_swap. apply sumn_ext. intros e He. rewrite sumn_swap. apply sumn_ext. intros s Hs.
        rewrite sumn_swap. apply sumn_ext. intros t Ht. unfold eff_score. rewrite <- sumn_mult_l. fold D.
        apply sumn_ext. intros f Hfd. fold k. ring.
Qed.

Lemma mapM_index yl l : Forall (fun i => (i < length yl)%nat) l -> mapM (index yl) l = Ok (map (fun i => nth i yl 0%nat) l).
Proof.
  induction 1 as [|i r H Hr IH]; [reflexivity|]. cbn [mapM]. rewrite (index_ok _ _ 0%nat) by exact H. cbn [bind].
  rewrite IH. reflexivity.
Qed.

Lemma zipw_map_same {A B C D} (f : B -> C -> D) (g : A -> B) (h : A -> C) l :
  zipw f (map g l) (map h l) = map (fun a => f (g a) (h a)) l.
Proof. induction l; simpl; congruence. Qed.

Lemma ef_marginals_discrete k n edges y : labelling n k y -> graph_edges n edges ->
  exists um pw, ef_marginals k n edges (EDiscrete y) = Ok (um, pw) /\
    mrows um = n /\ mcols um = k /\ mrows pw = length edges /\ mcols pw = (k * k)%nat /\
    (forall i s, (i < n)%nat -> (s < k)%nat -> mget um i s = ind (s =? lab y i)%nat) /\
    (forall e s t, (e < length edges)%nat -> (s < k)%nat -> (t < k)%nat -> mget pw e (s * k + t) =
       ind (s =? lab y (fst (nth e edges (0,0)%nat)))%nat * ind (t =? lab y (snd (nth e edges (0,0)%nat)))%nat).
Proof.
  intros [HL HF] Hg. simpl. rewrite HL, Nat.eqb_refl. simpl.
  rewrite one_hot_ok by exact HF. cbn [bind]. rewrite HL.
  assert (H0 : Forall (fun i => (i < length y)%nat) (map fst edges)).
  { apply Forall_forall. intros i Hi. apply in_map_iff in Hi. destruct Hi as [e [<- He]].
    unfold graph_edges in Hg. rewrite Forall_forall in Hg. rewrite HL. apply Hg, He. }
  assert (H1 : Forall (fun i => (i < length y)%nat) (map snd edges)).
  { apply Forall_forall. intros i Hi. apply in_map_iff in Hi. destruct Hi as [e [<- He]].
    unfold graph_edges in Hg. rewrite Forall_forall in Hg. rewrite HL. apply Hg, He. }
  rewrite mapM_index by exact H1. cbn [bind]. rewrite mapM_index by exact H0. cbn [bind].
  rewrite !map_map, zipw_map_same.
  rewrite one_hot_ok.
  2:{ apply Forall_forall. intros c Hc. apply in_map_iff in Hc. destruct Hc as [e [<- He]].
      unfold graph_edges in Hg. rewrite Forall_forall in Hg. destruct (Hg e He) as [A B].
      assert (nth (fst e) y 0 < k)%nat by (apply (Forall_nth_lt (fun s => (s < k)%nat)); [exact HF|lia]).
      assert (nth (snd e) y 0 < k)%nat by (apply (Forall_nth_lt (fun s => (s < k)%nat)); [exact HF|lia]). nia. }
  cbn [bind]. eexists. eexists. split; [reflexivity|]. cbn [mrows mcols mtab]. rewrite map_length.
  repeat (split; [reflexivity|]). split.
  - intros i s Hi Hs. fold (mtab n k (fun i0 s0 => ind (s0 =? nth i0 y 0)%nat)). rewrite mget_mtab by assumption. reflexivity.
  - intros e s t He Hs Ht. 
    rewrite mget_mtab by (assumption || nia). rewrite (nth_map_in _ _ _ (0,0)%nat) by exact He.
    destruct (graph_edges_nth n edges e Hg He) as [A B]. unfold lab.
    assert (K0 : (nth (fst (nth e edges (0,0)%nat)) y 0 < k)%nat) by (apply (Forall_nth_lt (fun s => (s < k)%nat)); [exact HF|lia]).
    assert (K1 : (nth (snd (nth e edges (0,0)%nat)) y 0 < k)%nat) by (apply (Forall_nth_lt (fun s => (s < k)%nat)); [exact HF|lia]).
    set (a := nth (fst (nth e edges (0,0)%nat)) y 0%nat) in *. set (b := nth (snd (nth e edges (0,0)%nat)) y 0%nat) in *.
    destruct (Nat.eqb_spec (s * k + t) (b + k * a)) as [E|E].
    + assert (s = a).
      { destruct (Nat.lt_trichotomy s a) as [L|[L|L]]; [|exact L|].
        - assert ((s + 1) * k <= a * k)%nat by (apply Nat.mul_le_mono_r; lia). lia.
        - assert ((a + 1) * k <= s * k)%nat by (apply Nat.mul_le_mono_r; lia). lia. }
      assert (t = b) by (subst s; lia). subst s t.
      rewrite !Nat.eqb_refl. reflexivity.
    + destruct (Nat.eqb_spec s a) as [->|]; [|simpl; ring]. destruct (Nat.eqb_spec t b) as [->|]; [|simpl; ring].
      exfalso. apply E. lia.
Qed.

Lemma ef_core_discrete g feats edges ef y w :
  declared_ok g -> mcols feats = ef_features g -> mcols ef = ef_edge_features g ->
  mrows ef = length edges -> graph_edges (mrows feats) edges ->
  labelling (mrows feats) (ef_states g) y -> length w = ef_size g ->
  exists psi, ef_joint_feature_core g feats edges ef (EDiscrete y) = Ok psi /\ length psi = ef_size g /\
    respects_symmetry (ef_states g) (ef_features g) (ef_sym g) (ef_anti g) psi /\
    dot w psi = score (mrows feats) edges (fun i => unary_score (ef_features g) w (mget feats i))
                  (fun e => eff_score g w (mget ef e)) (lab y).
Proof.
  intros Hdecl Hf Hd He Hg Hy Hw.
  destruct (ef_marginals_discrete (ef_states g) (mrows feats) edges y Hy Hg) as [um [pw [E [A1 [A2 [B1 [B2 [Mu Mp]]]]]]]].
  destruct (ef_core_dot g feats edges ef (EDiscrete y) um pw w E Hdecl Hf Hd A1 A2 ltac:(congruence) B2 Hw)
    as [psi [P1 [P2 [P3 [P4 P5]]]]].
  exists psi. split; [exact P1|]. split; [exact P2|]. split; [split; assumption|]. rewrite P5. unfold score. f_equal.
  - apply sumn_ext. intros i Hi.
    rewrite (sumn_ext _ _ (fun s => ind (s =? lab y i)%nat * unary_score (ef_features g) w (mget feats i) s)).
    + rewrite sumn_pick; auto. eapply labelling_lt; eauto.
    + intros s Hs. rewrite Mu by assumption. reflexivity.
  - rewrite He. apply sumn_ext. intros e Hee. destruct (graph_edges_nth _ _ e Hg Hee) as [A B].
    rewrite (sumn_ext _ _ (fun s => ind (s =? lab y (fst (nth e edges (0,0)%nat)))%nat *
        eff_score g w (mget ef e) s (lab y (snd (nth e edges (0,0)%nat))))).
    + rewrite (sumn_pick _ _ (fun s => eff_score g w (mget ef e) s (lab y (snd (nth e edges (0,0)%nat))))); [reflexivity|].
      eapply labelling_lt; eauto.
    + intros s Hs.
      rewrite (sumn_ext _ _ (fun t => ind (t =? lab y (snd (nth e edges (0,0)%nat)))%nat *
        (ind (s =? lab y (fst (nth e edges (0,0)%nat)))%nat * eff_score g w (mget ef e) s t))).
      * rewrite (sumn_pick _ _ (fun t => ind (s =? lab y (fst (nth e edges (0,0)%nat)))%nat * eff_score g w (mget ef e) s t)); [reflexivity|].
        eapply labelling_lt; eauto.
      * intros t Ht. rewrite Mp by assumption. ring.
Qed.
