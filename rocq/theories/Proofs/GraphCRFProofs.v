From Verif Require Import Model.GraphCRF Spec.Energy Spec.GraphSpec Proofs.Arrays Proofs.SymProofs Proofs.EnergyProofs.

(** A well-formed instance for the model. *)
Record valid_x (g : graph_crf) (x : graph_x) : Prop := {
  vx_ok : mat_ok (gx_features x);
  vx_features : mcols (gx_features x) = g_features g;
  vx_edges : graph_edges (mrows (gx_features x)) (gx_edges x) }.

Lemma g_size_eq g : g_size g =
  (g_states g * g_features g + if g_directed g then g_states g * g_states g else trinum (g_states g))%nat.
Proof. unfold g_size, trinum. destruct (g_directed g); reflexivity. Qed.

Lemma g_check_x_ok g x : valid_x g x -> g_check_x g x = Ok tt.
Proof. intros [_ H _]. unfold g_check_x. rewrite H, Nat.eqb_refl. reflexivity. Qed.
Lemma check_size_w_ok n w : length w = n -> check_size_w n w = Ok tt.
Proof. intros <-. unfold check_size_w. rewrite Nat.eqb_refl. reflexivity. Qed.
Lemma check_size_w_err n w : length w <> n -> check_size_w n w = Err ValueError.
Proof. intro H. unfold check_size_w. apply Nat.eqb_neq in H. rewrite H. reflexivity. Qed.

Lemma g_unary_ok g x w : valid_x g x -> length w = g_size g ->
  exists U, g_unary g x w = Ok U /\ mat_ok U /\ mrows U = mrows (gx_features x) /\ mcols U = g_states g /\
    forall i s, (i < mrows (gx_features x))%nat -> (s < g_states g)%nat ->
      mget U i s = unary_score (g_features g) w (mget (gx_features x) i) s.
Proof.
  intros Hx Hw. unfold g_unary. rewrite check_size_w_ok by exact Hw. rewrite g_check_x_ok by exact Hx. cbn [bind].
  assert (Hsz := g_size_eq g). rewrite reshape_ok by (rewrite firstn_length; lia). cbn [bind].
  destruct Hx as [_ Hf _]. rewrite mat_mul_ok by (simpl; exact Hf).
  eexists. split; [reflexivity|]. split; [apply mtab_ok|]. simpl. split; auto. split; auto.
  intros i s Hi Hs. rewrite mget_mtab by assumption. unfold unary_score. rewrite Hf.
  apply sumn_ext. intros f Hf'. rewrite mget_T by (simpl; assumption). rewrite mget_mtab by assumption.
  rewrite get1_firstn by nia. ring.
Qed.

Lemma tri_index_le s t : (t <= s)%nat -> tri_index s t = (trinum s + t)%nat.
Proof. intro H. unfold tri_index, trinum. rewrite Nat.max_l, Nat.min_r by lia. reflexivity. Qed.
Lemma tri_index_ge s t : (s <= t)%nat -> tri_index s t = (trinum t + s)%nat.
Proof. intro H. unfold tri_index, trinum. rewrite Nat.max_r, Nat.min_l by lia. reflexivity. Qed.

Lemma g_pairwise_ok g x w : valid_x g x -> length w = g_size g ->
  exists P, g_pairwise g x w = Ok P /\ mat_ok P /\ mrows P = g_states g /\ mcols P = g_states g /\
    forall s t, (s < g_states g)%nat -> (t < g_states g)%nat ->
      mget P s t = pair_score (g_states g) (g_features g) (g_directed g) w s t.
Proof.
  intros Hx Hw. unfold g_pairwise. rewrite check_size_w_ok by exact Hw. rewrite g_check_x_ok by exact Hx. cbn [bind].
  assert (Hsz := g_size_eq g). unfold pair_score. destruct (g_directed g).
  - rewrite reshape_ok by (rewrite skipn_length; lia).
    eexists. split; [reflexivity|]. split; [apply mtab_ok|]. simpl. split; auto. split; auto.
    intros s t Hs Ht. rewrite mget_mtab by assumption. apply get1_skipn.
  - destruct (expand_sym_ok (g_states g) (skipn (g_states g * g_features g) w)) as [m [E [O [R [C G]]]]].
    { rewrite skipn_length. lia. }
    exists m. repeat (split; auto). intros s t Hs Ht. rewrite G by assumption. unfold sym_entry.
    rewrite !get1_skipn. destruct (Nat.leb_spec t s).
    + rewrite tri_index_le by lia. reflexivity.
    + rewrite tri_index_ge by lia. reflexivity.
Qed.

(** What joint_feature needs from the marginals. *)
Lemma dot_joint_feature g (um pw features : mat) w n :
  mrows um = n -> mcols um = g_states g -> mrows features = n -> mcols features = g_features g ->
  mrows pw = g_states g -> mcols pw = g_states g -> length w = g_size g ->
  mat_ok pw ->
  exists acc pwv, mat_mul (mat_T um) features = Ok acc /\
    (if g_directed g then Ok (ravel pw) else compress_sym pw true) = Ok pwv /\
    length (ravel acc ++ pwv) = g_size g /\
    dot w (ravel acc ++ pwv) =
      sumn n (fun i => sumn (g_states g) (fun s => mget um i s * unary_score (g_features g) w (mget features i) s)) +
      sumn (g_states g) (fun s => sumn (g_states g) (fun t =>
         pair_score (g_states g) (g_features g) (g_directed g) w s t * mget pw s t)).
Proof.
  intros Hur Huc Hfr Hfc Hpr Hpc Hw Hpok.
  rewrite mat_mul_ok by (simpl; congruence). simpl mrows. simpl mcols.
  assert (Hsz := g_size_eq g).
  eexists. assert (Hpwv : exists pwv, (if g_directed g then Ok (ravel pw) else compress_sym pw true) = Ok pwv /\
     length pwv = (g_size g - g_states g * g_features g)%nat /\
     dot (skipn (g_states g * g_features g) w) pwv = sumn (g_states g) (fun s => sumn (g_states g) (fun t =>
         pair_score (g_states g) (g_features g) (g_directed g) w s t * mget pw s t))).
  { unfold pair_score. destruct (g_directed g).
    - assert (E : pw = mtab (g_states g) (g_states g) (mget pw)).
      { apply mat_eq_ext; auto; try apply mtab_ok. intros i j Hi Hj. rewrite mget_mtab; congruence. }
      exists (ravel pw). split; auto. rewrite E at 1 2. rewrite ravel_mtab_length. split; [lia|].
      unfold ravel, mtab, mdat. rewrite dot_concat_tab2 by (rewrite skipn_length; lia).
      apply sumn_ext. intros s Hs. apply sumn_ext. intros t Ht. rewrite get1_skipn. reflexivity.
    - rewrite (compress_sym_true_ok (g_states g)) by assumption.
      eexists. split; [reflexivity|]. rewrite map_length, tri_positions_length. split; [lia|].
      rewrite dot_compress by (rewrite skipn_length; lia).
      apply sumn_ext. intros s Hs. apply sumn_ext. intros t Ht. f_equal. unfold sym_entry.
      rewrite !get1_skipn. destruct (Nat.leb_spec t s).
      + rewrite tri_index_le by lia. reflexivity.
      + rewrite tri_index_ge by lia. reflexivity. }
  destruct Hpwv as [pwv [E [L D]]]. exists pwv. split; [reflexivity|]. split; [exact E|].
  rewrite app_length, ravel_mtab_length, Huc, Hfc, L. split; [lia|].
  rewrite <- (firstn_skipn (g_states g * g_features g) w) at 1.
  rewrite dot_app by (rewrite firstn_length, ravel_mtab_length; lia).
  rewrite D. f_equal.
  unfold ravel, mtab, mdat. rewrite dot_concat_tab2 by (rewrite firstn_length; lia).
  unfold unary_score.
  transitivity (sumn (g_states g) (fun s => sumn n (fun i => sumn (g_features g) (fun f =>
      mget um i s * (get1 w (s * g_features g + f) * mget features i f))))).
  - apply sumn_ext. intros s Hs. rewrite sumn_swap. apply sumn_ext. intros f Hf.
    rewrite Hur, <- sumn_mult_l. apply sumn_ext. intros i Hi.
    change (map (fun i0 : nat => tab1 (mrows um) (fun j => mget um j i0)) (seq 0 (mcols um))) with (tab2 (mcols um) (mrows um) (fun i0 j => mget um j i0)).
    rewrite mget_T by (rewrite ?Huc, ?Hur; assumption).
    rewrite get1_firstn by nia. ring.
  - rewrite sumn_swap. apply sumn_ext. intros i Hi. apply sumn_ext. intros s Hs.
    rewrite sumn_mult_l. reflexivity.
Qed.

Lemma g_marginals_discrete k n edges y : labelling n k y -> graph_edges n edges ->
  exists um pw, g_marginals k n edges (Discrete y) = Ok (um, pw) /\
    mrows um = n /\ mcols um = k /\ mat_ok um /\ mrows pw = k /\ mcols pw = k /\ mat_ok pw /\
    (forall i s, (i < n)%nat -> (s < k)%nat -> mget um i s = ind (s =? lab y i)%nat) /\
    (forall s t, (s < k)%nat -> (t < k)%nat -> mget pw s t =
       sumn (length edges) (fun e => ind (s =? lab y (fst (nth e edges (0,0)%nat)))%nat *
                                     ind (t =? lab y (snd (nth e edges (0,0)%nat)))%nat)).
Proof.
  intros [HL HF] Hg. simpl. rewrite HL, Nat.eqb_refl. simpl.
  rewrite one_hot_ok by exact HF. cbn [bind]. rewrite HL.
  assert (H0 : Forall (fun i => (i < n)%nat) (map fst edges)).
  { apply Forall_forall. intros i Hi. apply in_map_iff in Hi. destruct Hi as [e [<- He]].
    unfold graph_edges in Hg. rewrite Forall_forall in Hg. apply Hg, He. }
  assert (H1 : Forall (fun i => (i < n)%nat) (map snd edges)).
  { apply Forall_forall. intros i Hi. apply in_map_iff in Hi. destruct Hi as [e [<- He]].
    unfold graph_edges in Hg. rewrite Forall_forall in Hg. apply Hg, He. }
  rewrite take_rows_ok by (simpl; exact H0). cbn [bind].
  rewrite take_rows_ok by (simpl; exact H1). cbn [bind].
  rewrite mat_mul_ok by (simpl; rewrite !map_length; reflexivity). cbn [bind].
  eexists. eexists. split; [reflexivity|]. simpl mrows. simpl mcols. rewrite !map_length.
  repeat (split; [auto; try apply mtab_ok|]).
  - intros i s Hi Hs. rewrite mget_mtab by assumption. reflexivity.
  - intros s t Hs Ht. rewrite mget_mtab by assumption. apply sumn_ext. intros e He.
    destruct (graph_edges_nth n edges e Hg He) as [A B].
    rewrite mget_T by (simpl; rewrite ?map_length; assumption).
    rewrite !mget_take_rows by (rewrite map_length; exact He).
    change (tab2 n k) with (fun f => mdat (mtab n k f)). cbv beta.
    rewrite (nth_map_in fst _ _ (0,0)%nat), (nth_map_in snd _ _ (0,0)%nat) by exact He.
    fold (mget (mtab n k (fun i0 s0 => ind (s0 =? nth i0 y 0)%nat)) (fst (nth e edges (0,0)%nat)) s).
    fold (mget (mtab n k (fun i0 s0 => ind (s0 =? nth i0 y 0)%nat)) (snd (nth e edges (0,0)%nat)) t).
    rewrite !mget_mtab by assumption. reflexivity.
Qed.

Lemma g_joint_feature_discrete g x w y :
  valid_x g x -> length w = g_size g -> labelling (mrows (gx_features x)) (g_states g) y ->
  exists psi, g_joint_feature g x (Discrete y) = Ok psi /\ length psi = g_size g /\
    dot w psi = score (mrows (gx_features x)) (gx_edges x)
                  (fun i => unary_score (g_features g) w (mget (gx_features x) i))
                  (fun _ => pair_score (g_states g) (g_features g) (g_directed g) w) (lab y).
Proof.
  intros Hx Hw Hy. unfold g_joint_feature. rewrite g_check_x_ok by exact Hx. cbn [bind].
  destruct Hx as [Hok Hf Hg].
  destruct (g_marginals_discrete (g_states g) (mrows (gx_features x)) (gx_edges x) y Hy Hg)
    as [um [pw [E [A1 [A2 [A3 [B1 [B2 [B3 [Mu Mp]]]]]]]]]].
  rewrite E. cbn [bind].
  destruct (dot_joint_feature g um pw (gx_features x) w _ A1 A2 eq_refl Hf B1 B2 Hw B3) as [acc [pwv [C1 [C2 [C3 C4]]]]].
  rewrite C1. cbn [bind]. rewrite C2. cbn [bind].
  eexists. split; [reflexivity|]. split; [exact C3|]. rewrite C4. unfold score. f_equal.
  - apply sumn_ext. intros i Hi.
    rewrite (sumn_ext _ _ (fun s => ind (s =? lab y i)%nat * unary_score (g_features g) w (mget (gx_features x) i) s)).
    + rewrite sumn_pick; auto. eapply labelling_lt; eauto.
    + intros s Hs. rewrite Mu by assumption. reflexivity.
  - rewrite (sumn_ext _ _ (fun s => sumn (length (gx_edges x)) (fun e =>
       ind (s =? lab y (fst (nth e (gx_edges x) (0,0)%nat)))%nat *
       pair_score (g_states g) (g_features g) (g_directed g) w s (lab y (snd (nth e (gx_edges x) (0,0)%nat)))))).
    + rewrite sumn_swap. apply sumn_ext. intros e He.
      destruct (graph_edges_nth _ _ e Hg He) as [A B].
      rewrite (sumn_pick (g_states g) _ (fun s => pair_score (g_states g) (g_features g) (g_directed g) w s _)); auto.
      eapply labelling_lt; eauto.
    + intros s Hs.
      rewrite (sumn_ext _ _ (fun t => sumn (length (gx_edges x)) (fun e =>
         ind (t =? lab y (snd (nth e (gx_edges x) (0,0)%nat)))%nat *
         (ind (s =? lab y (fst (nth e (gx_edges x) (0,0)%nat)))%nat *
          pair_score (g_states g) (g_features g) (g_directed g) w s t)))).
      * rewrite sumn_swap. apply sumn_ext. intros e He.
        destruct (graph_edges_nth _ _ e Hg He) as [A B].
        rewrite (sumn_pick (g_states g) _ (fun t => ind (s =? lab y (fst (nth e (gx_edges x) (0,0)%nat)))%nat *
          pair_score (g_states g) (g_features g) (g_directed g) w s t)); auto.
        eapply labelling_lt; eauto.
      * intros t Ht. rewrite Mp by assumption. rewrite <- sumn_mult_l. apply sumn_ext. intros e He. ring.
Qed.

Lemma g_joint_feature_relaxed g x w um pw n_pw :
  valid_x g x -> length w = g_size g -> (0 < g_states g)%nat ->
  length um = (mrows (gx_features x) * g_states g)%nat ->
  length pw = (n_pw * (g_states g * g_states g))%nat ->
  exists psi, g_joint_feature g x (Relaxed um pw) = Ok psi /\ length psi = g_size g /\
    dot w psi =
      sumn (mrows (gx_features x)) (fun i => sumn (g_states g) (fun s =>
         get1 um (i * g_states g + s) * unary_score (g_features g) w (mget (gx_features x) i) s)) +
      sumn n_pw (fun e => sumn (g_states g) (fun s => sumn (g_states g) (fun t =>
         get1 pw ((e * g_states g + s) * g_states g + t) *
         pair_score (g_states g) (g_features g) (g_directed g) w s t))).
Proof.
  intros Hx Hw HS Hum Hpw. unfold g_joint_feature. rewrite g_check_x_ok by exact Hx. cbn [bind].
  destruct Hx as [Hok Hf Hg]. simpl g_marginals. rewrite reshape_ok by exact Hum. cbn [bind].
  unfold sum_pairwise. rewrite Hpw.
  assert (HSS : (g_states g * g_states g <> 0)%nat) by nia.
  rewrite Nat.mod_mul, Nat.div_mul by exact HSS.
  replace (g_states g =? 0)%nat with false by (symmetry; apply Nat.eqb_neq; lia). simpl.
  match goal with |- context [mat_mul (mat_T ?u) _] =>
   match goal with |- context [compress_sym ?p true] =>
    destruct (dot_joint_feature g u p (gx_features x) w (mrows (gx_features x))) as [acc [pwv [C1 [C2 [C3 C4]]]]];
      try reflexivity; try assumption; try apply mtab_ok
   end end.
  rewrite C1. cbn [bind]. rewrite C2. cbn [bind].
  eexists. split; [reflexivity|]. split; [exact C3|]. rewrite C4. f_equal.
  - apply sumn_ext. intros i Hi. apply sumn_ext. intros s Hs. rewrite mget_mtab by assumption. reflexivity.
  - rewrite (sumn_swap n_pw). apply sumn_ext. intros s Hs.
    rewrite (sumn_swap n_pw). apply sumn_ext. intros t Ht. rewrite mget_mtab by assumption.
    rewrite <- sumn_mult_l. apply sumn_ext. intros e He. ring.
Qed.

Lemma graphcrf_score_linear :
  forall (g : graph_crf) (x : graph_x) (w : list Qc) (y : list nat),
    mat_ok (gx_features x) ->
    mcols (gx_features x) = g_features g ->
    graph_edges (mrows (gx_features x)) (gx_edges x) ->
    length w = g_size g ->
    labelling (mrows (gx_features x)) (g_states g) y ->
    exists U P psi,
      g_unary g x w = Ok U /\
      g_pairwise g x w = Ok P /\
      g_joint_feature g x (Discrete y) = Ok psi /\
      length psi = g_size g /\
      compute_energy U (Pw2 P) (gx_edges x) y = Ok (dot w psi) /\
      dot w psi =
        score (mrows (gx_features x)) (gx_edges x)
              (fun i s => unary_score (g_features g) w (mget (gx_features x) i) s)
              (fun _ s t => pair_score (g_states g) (g_features g) (g_directed g) w s t)
              (lab y).
Proof.
  intros g x w y Hok Hf Hg Hw Hy. assert (Hx : valid_x g x) by (constructor; assumption).
  destruct (g_unary_ok g x w Hx Hw) as [U [EU [OU [RU [CU GU]]]]].
  destruct (g_pairwise_ok g x w Hx Hw) as [P [EP [OP [RP [CP GP]]]]].
  destruct (g_joint_feature_discrete g x w y Hx Hw Hy) as [psi [E1 [E2 E3]]].
  exists U, P, psi. repeat (split; [assumption|]). split; [|exact E3].
  rewrite (compute_energy_pw2 U P (gx_edges x) y (mrows (gx_features x)) (g_states g)) by assumption.
  rewrite E3. f_equal. unfold score. f_equal.
  - apply sumn_ext. intros i Hi. apply GU; auto. eapply labelling_lt; eauto.
  - apply sumn_ext. intros e He. destruct (graph_edges_nth _ _ e Hg He). apply GP; eapply labelling_lt; eauto.
Qed.

Lemma graphcrf_relaxed_score_linear :
  forall (g : graph_crf) (x : graph_x) (w um pw : list Qc) (n_pw : nat),
    mat_ok (gx_features x) ->
    mcols (gx_features x) = g_features g ->
    graph_edges (mrows (gx_features x)) (gx_edges x) ->
    length w = g_size g ->
    (0 < g_states g)%nat ->
    length um = (mrows (gx_features x) * g_states g)%nat ->
    length pw = (n_pw * (g_states g * g_states g))%nat ->
    exists U P psi,
      g_unary g x w = Ok U /\
      g_pairwise g x w = Ok P /\
      g_joint_feature g x (Relaxed um pw) = Ok psi /\
      length psi = g_size g /\
      dot w psi =
        sumn (mrows (gx_features x)) (fun i => sumn (g_states g) (fun s =>
          get1 um (i * g_states g + s) * mget U i s)) +
        sumn n_pw (fun e => sumn (g_states g) (fun s => sumn (g_states g) (fun t =>
          get1 pw ((e * g_states g + s) * g_states g + t) * mget P s t))).
Proof.
  intros g x w um pw n_pw Hok Hf Hg Hw HS Hum Hpw. assert (Hx : valid_x g x) by (constructor; assumption).
  destruct (g_unary_ok g x w Hx Hw) as [U [EU [OU [RU [CU GU]]]]].
  destruct (g_pairwise_ok g x w Hx Hw) as [P [EP [OP [RP [CP GP]]]]].
  destruct (g_joint_feature_relaxed g x w um pw n_pw Hx Hw HS Hum Hpw) as [psi [E1 [E2 E3]]].
  exists U, P, psi. repeat (split; [assumption|]). rewrite E3. f_equal.
  - apply sumn_ext. intros i Hi. apply sumn_ext. intros s Hs. rewrite GU by assumption. reflexivity.
  - apply sumn_ext. intros e He. apply sumn_ext. intros s Hs. apply sumn_ext. intros t Ht.
    rewrite GP by assumption. reflexivity.
Qed.

Lemma graphcrf_size_checks :
  forall (g : graph_crf) (x : graph_x) (w : list Qc) (y : label),
    (length w <> g_size g -> g_unary g x w = Err ValueError /\ g_pairwise g x w = Err ValueError) /\
    (mcols (gx_features x) <> g_features g -> g_joint_feature g x y = Err ValueError) /\
    (forall yl, length yl <> mrows (gx_features x) -> y = Discrete yl ->
       g_joint_feature g x y = Err ValueError).
Proof.
  intros g x w y. split; [|split].
  - intro H. unfold g_unary, g_pairwise. rewrite check_size_w_err by exact H. split; reflexivity.
  - intro H. unfold g_joint_feature, g_check_x. apply Nat.eqb_neq in H. rewrite H. reflexivity.
  - intros yl H ->. unfold g_joint_feature, g_check_x.
    destruct (mcols (gx_features x) =? g_features g)%nat; simpl; [|reflexivity].
    apply Nat.eqb_neq in H. rewrite H. reflexivity.
Qed.

Lemma compute_energy_correct :
  forall (U m : mat) (d : list (list (list Qc))) (edges : list (nat * nat)) (y : list nat) (n k : nat),
    mrows U = n -> mcols U = k ->
    graph_edges n edges -> labelling n k y ->
    (mrows m = k -> mcols m = k ->
       compute_energy U (Pw2 m) edges y = Ok (score n edges (mget U) (fun _ => mget m) (lab y)) /\
       compute_energy U (Pw3 (length edges) k k (repeat (mdat m) (length edges))) edges y =
         compute_energy U (Pw2 m) edges y) /\
    (length d = length edges ->
       compute_energy U (Pw3 (length edges) k k d) edges y =
         Ok (score n edges (mget U) (fun e => get2 (nth e d [])) (lab y))).
Proof.
  intros U m d edges y n k Hr Hc Hg Hy. split.
  - intros H1 H2. rewrite (compute_energy_pw2 U m edges y n k) by assumption. split; auto.
    rewrite (compute_energy_pw3 U _ edges y n k) by (auto; apply repeat_length).
    f_equal. unfold score. f_equal. apply sumn_ext. intros e He. unfold mget. f_equal.
    apply (repeat_spec (length edges) (mdat m)). apply nth_In. rewrite repeat_length. exact He.
  - intro Hd. apply compute_energy_pw3; assumption.
Qed.

Lemma compute_energy_rejects :
  forall (U : mat) (p : pairwise) (edges : list (nat * nat)) (y : list nat),
    (match p with
     | Pw2 m => mrows m <> mcols U \/ mcols m <> mcols U
     | Pw3 n0 n1 n2 _ => n0 <> length edges \/ n1 <> mcols U \/ n2 <> mcols U
     end -> compute_energy U p edges y = Err ValueError).
Proof.
  intros U p edges y H. unfold compute_energy, validate_params. destruct p as [m|n0 n1 n2 d].
  - destruct (Nat.eqb_spec (mrows m) (mcols U)), (Nat.eqb_spec (mcols m) (mcols U)); simpl; auto. tauto.
  - destruct (Nat.eqb_spec n0 (length edges)), (Nat.eqb_spec n1 (mcols U)), (Nat.eqb_spec n2 (mcols U)); simpl; auto. tauto.
Qed.

Lemma expand_sym_symmetric :
  forall (k : nat) (v : list Qc), length v = (k * (k + 1) / 2)%nat ->
    exists m, expand_sym v = Ok m /\ mat_ok m /\ mrows m = k /\ mcols m = k /\
      forall i j, (i < k)%nat -> (j < k)%nat ->
        mget m i j = mget m j i /\ mget m i j = get1 v (tri_index i j).
Proof.
  intros k v Hv. destruct (expand_sym_ok k v Hv) as [m [E [O [R [C G]]]]].
  exists m. repeat (split; [assumption|]). intros i j Hi Hj. rewrite !G by assumption.
  split; [apply sym_entry_sym|]. unfold sym_entry. destruct (Nat.leb_spec j i).
  - rewrite tri_index_le by lia. reflexivity.
  - rewrite tri_index_ge by lia. reflexivity.
Qed.
Lemma expand_sym_rejects :
  forall (v : list Qc), (forall k, length v <> (k * (k + 1) / 2)%nat) -> expand_sym v = Err ValueError.
Proof. intros v H. apply expand_sym_bad. apply H. Qed.
Lemma default_roundtrip_refuted :
  exists v m, expand_sym v = Ok m /\ compress_sym m true <> Ok v.
Proof.
  destruct (compress_expand_true 2 [1; 1; 1] eq_refl) as [m [v' [E [C [_ H]]]]].
  exists [1; 1; 1], m. split; auto. rewrite C. intro A. injection A as ->.
  specialize (H 1%nat 0%nat ltac:(lia) ltac:(lia)). vm_compute in H. discriminate H.
Qed.
Lemma not_trinum_2 k : 2%nat <> (k * (k + 1) / 2)%nat.
Proof.
  fold (trinum k). destruct k as [|[|k]]; try discriminate. rewrite !trinum_S. lia.
Qed.
