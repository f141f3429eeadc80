From Verif Require Import Model.LP Spec.Energy Spec.LocalPolytope Spec.LPSpec Spec.SolverSpec
  Proofs.Arrays Proofs.EnergyProofs Proofs.LossProofs Proofs.MaxProdProofs Proofs.LPProofs.

(** ** points of the local polytope *)
Lemma sum_ind k s f : (s < k)%nat -> sumn k (fun t => ind (t =? s)%nat * f t) = f s.
Proof. apply sumn_pick. Qed.
Lemma sum_ind1 k s : (s < k)%nat -> sumn k (fun t => ind (t =? s)%nat) = 1.
Proof.
  intro H. rewrite <- (sumn_pick k s (fun _ => 1) H). apply sumn_ext. intros. ring.
Qed.
Lemma ind_nonneg b : 0 <= ind b.
Proof. destruct b; unfold ind; qclra. Qed.

Lemma one_hot_local n k edges y : graph_edges n edges -> (forall i, (i < n)%nat -> (y i < k)%nat) ->
  local_polytope n k edges (one_hot_mu y) (one_hot_nu edges y).
Proof.
  intros Hg Hy. constructor.
  - intros. apply ind_nonneg.
  - intros. apply Qcmult_nonneg; apply ind_nonneg.
  - intros i Hi. apply sum_ind1. auto.
  - intros e s He Hs. destruct (graph_edges_nth _ _ _ Hg He) as [Ha Hb]. unfold one_hot_nu, one_hot_mu.
    rewrite sumn_mult_l, sum_ind1 by auto. ring.
  - intros e s He Hs. destruct (graph_edges_nth _ _ _ Hg He) as [Ha Hb]. unfold one_hot_nu, one_hot_mu.
    rewrite sumn_mult_r, sum_ind1 by auto. ring.
Qed.
Lemma marginal_score_ext n k edges U U' P P' mu mu' nu nu' :
  (forall i s, (i < n)%nat -> (s < k)%nat -> mu i s = mu' i s) ->
  (forall e s t, (e < length edges)%nat -> (s < k)%nat -> (t < k)%nat -> nu e s t = nu' e s t) ->
  (forall i s, (i < n)%nat -> (s < k)%nat -> U i s = U' i s) ->
  (forall e s t, (e < length edges)%nat -> (s < k)%nat -> (t < k)%nat -> P e s t = P' e s t) ->
  marginal_score n k edges U P mu nu = marginal_score n k edges U' P' mu' nu'.
Proof.
  intros H1 H2 H3 H4. unfold marginal_score. f_equal; apply sumn_ext; intros; apply sumn_ext; intros.
  - rewrite H1, H3 by assumption. reflexivity.
  - apply sumn_ext. intros. rewrite H2, H4 by assumption. reflexivity.
Qed.
Lemma one_hot_score n k edges U P y : graph_edges n edges -> (forall i, (i < n)%nat -> (y i < k)%nat) ->
  marginal_score n k edges U P (one_hot_mu y) (one_hot_nu edges y) = score n edges U P y.
Proof.
  intros Hg Hy. unfold marginal_score, score. f_equal; apply sumn_ext.
  - intros i Hi. unfold one_hot_mu. apply sumn_pick. auto.
  - intros e He. destruct (graph_edges_nth _ _ _ Hg He) as [Ha Hb]. unfold one_hot_nu.
    transitivity (sumn k (fun s => ind (s =? y (fst (nth e edges (0, 0)%nat)))%nat *
      P e s (y (snd (nth e edges (0, 0)%nat)))));
      [|apply (sumn_pick k _ (fun s => P e s (y (snd (nth e edges (0, 0)%nat))))); auto].
    apply sumn_ext. intros s Hs.
    transitivity (ind (s =? y (fst (nth e edges (0, 0)%nat)))%nat *
        sumn k (fun t => ind (t =? y (snd (nth e edges (0, 0)%nat)))%nat * P e s t)).
    + rewrite <- sumn_mult_l. apply sumn_ext. intros. ring.
    + rewrite sumn_pick by auto. reflexivity.
Qed.
(** one-hot node marginals determine the edge marginals *)
Lemma one_hot_forced n k edges mu nu y : graph_edges n edges -> (forall i, (i < n)%nat -> (y i < k)%nat) ->
  local_polytope n k edges mu nu -> (forall i s, (i < n)%nat -> (s < k)%nat -> mu i s = one_hot_mu y i s) ->
  forall e s t, (e < length edges)%nat -> (s < k)%nat -> (t < k)%nat -> nu e s t = one_hot_nu edges y e s t.
Proof.
  intros Hg Hy [P1 P2 P3 P4 P5] HM e s t He Hs Ht.
  destruct (graph_edges_nth _ _ _ Hg He) as [Ha Hb].
  set (a := fst (nth e edges (0, 0)%nat)) in *. set (b := snd (nth e edges (0, 0)%nat)) in *.
  assert (Z1 : forall s t, (s < k)%nat -> (t < k)%nat -> s <> y a -> nu e s t = 0).
  { intros s' t' H1 H2 H3. apply (sumn_eq0 k (fun t => nu e s' t)); auto.
    rewrite P4 by assumption. fold a. rewrite HM by assumption. unfold one_hot_mu.
    destruct (Nat.eqb_spec s' (y a)); [congruence|reflexivity]. }
  assert (Z2 : forall s t, (s < k)%nat -> (t < k)%nat -> t <> y b -> nu e s t = 0).
  { intros s' t' H1 H2 H3. apply (sumn_eq0 k (fun s => nu e s t')); auto.
    rewrite P5 by assumption. fold b. rewrite HM by assumption. unfold one_hot_mu.
    destruct (Nat.eqb_spec t' (y b)); [congruence|reflexivity]. }
  unfold one_hot_nu. fold a b.
  destruct (Nat.eqb_spec s (y a)) as [->|N]; [|rewrite Z1 by assumption; unfold ind; ring].
  destruct (Nat.eqb_spec t (y b)) as [->|N]; [|rewrite Z2 by assumption; unfold ind; ring].
  assert (S1 := P4 e (y a) He Hs). fold a in S1. rewrite HM in S1 by assumption. unfold one_hot_mu in S1. rewrite Nat.eqb_refl in S1.
  transitivity (ind true); [|unfold ind; ring]. rewrite <- S1. symmetry.
  rewrite (sumn_ext k _ (fun t => ind (t =? y b)%nat * nu e (y a) t)).
  - apply sumn_pick. exact Ht.
  - intros t' Ht'. destruct (Nat.eqb_spec t' (y b)) as [->|N]; [unfold ind; ring|]. rewrite Z2 by assumption. unfold ind. ring.
Qed.

(** ** the objective *)
Lemma var_objective n k (edges : list (nat * nat)) (U : mat) (d : list (list (list Qc))) x :
  mat_ok U -> mrows U = n -> mcols U = k -> length d = length edges -> Forall (fun a => mat_ok (Mat k k a)) d ->
  length x = (n * k + length edges * (k * k))%nat ->
  dot (ravel U ++ concat (map (@concat Qc) d)) x =
  marginal_score n k edges (mget U) (fun e => get2 (nth e d [])) (var_mu k x) (var_nu n k x).
Proof.
  intros [HL HF] Hr Hc Hd HD HX. rewrite Hr in HL. rewrite Hc in HF.
  assert (F2 : Forall (fun r => length r = (k * k)%nat) (map (@concat Qc) d)).
  { apply Forall_forall. intros r Hin. apply in_map_iff in Hin. destruct Hin as [a [<- Ha]].
    rewrite Forall_forall in HD. destruct (HD a Ha) as [L1 L2]. simpl in *. rewrite (concat_length_rows k); auto. }
  assert (L1 : length (ravel U) = (n * k)%nat) by (unfold ravel; rewrite (concat_length_rows k), HL; auto).
  assert (L2 : length (concat (map (@concat Qc) d)) = (length edges * (k * k))%nat)
    by (rewrite (concat_length_rows (k * k)), map_length, Hd; auto).
  rewrite dot_get by (rewrite app_length; lia). rewrite app_length, L1, L2, sumn_split.
  unfold marginal_score. f_equal.
  - rewrite sumn_mul. apply sumn_ext. intros i Hi. apply sumn_ext. intros s Hs. unfold var_mu.
    assert (i * k + s < n * k)%nat by nia.
    unfold get1 at 1. rewrite app_nth1 by lia. fold (get1 (ravel U) (i * k + s)). unfold ravel.
    rewrite get1_concat by (auto; lia). unfold mget. ring.
  - rewrite sumn_mul. apply sumn_ext. intros e He. rewrite sumn_mul. apply sumn_ext. intros s Hs.
    apply sumn_ext. intros t Ht. unfold var_nu.
    assert (s * k + t < k * k)%nat by nia.
    unfold get1 at 1. rewrite app_nth2 by lia. rewrite L1.
    replace (n * k + (e * (k * k) + (s * k + t)) - n * k)%nat with (e * (k * k) + (s * k + t))%nat by lia.
    rewrite (nth_concat_rows 0 (k * k)) by (auto; rewrite map_length; lia).
    rewrite (nth_map_in _ _ _ []) by lia.
    assert (HDe : mat_ok (Mat k k (nth e d []))) by (rewrite Forall_forall in HD; apply HD, nth_In; lia).
    destruct HDe as [D1 D2]. simpl in *. rewrite (nth_concat_rows 0 k) by (auto; lia). unfold get2. ring.
Qed.

Lemma get2_neg a i j : get2 (map (map Qcopp) a) i j = - get2 a i j.
Proof.
  unfold get2. destruct (Nat.lt_ge_cases i (length a)) as [L|L].
  - rewrite (nth_map_in _ _ _ []) by exact L. destruct (Nat.lt_ge_cases j (length (nth i a []))) as [M|M].
    + rewrite (nth_map_in _ _ _ 0) by exact M. reflexivity.
    + rewrite !nth_overflow by (rewrite ?map_length; exact M). ring.
  - rewrite (nth_overflow (map _ a)) by (rewrite map_length; exact L). rewrite (nth_overflow a) by exact L.
    destruct j; simpl; ring.
Qed.
Lemma mat_neg_ok m : mat_ok m -> mat_ok (mat_neg m).
Proof.
  intros [H1 H2]. split; simpl; [rewrite map_length; exact H1|].
  apply Forall_map. eapply Forall_impl; [|exact H2]. intros r Hr. simpl. rewrite map_length. exact Hr.
Qed.
Lemma neg_tables_ok k d : Forall (fun a => mat_ok (Mat k k a)) d -> Forall (fun a => mat_ok (Mat k k a)) (map (map (map Qcopp)) d).
Proof. intro H. apply Forall_map. eapply Forall_impl; [|exact H]. intros a Ha. exact (mat_neg_ok _ Ha). Qed.

Lemma marginal_score_neg n k edges U P mu nu :
  marginal_score n k edges (fun i s => - U i s) (fun e s t => - P e s t) mu nu = - marginal_score n k edges U P mu nu.
Proof.
  unfold marginal_score.
  assert (A : sumn n (fun i => sumn k (fun s => mu i s * - U i s)) = - sumn n (fun i => sumn k (fun s => mu i s * U i s))).
  { rewrite <- sumn_opp. apply sumn_ext. intros. rewrite <- sumn_opp. apply sumn_ext. intros. ring. }
  rewrite A.
  assert (B : sumn (length edges) (fun e => sumn k (fun s => sumn k (fun t => nu e s t * - P e s t))) =
     - sumn (length edges) (fun e => sumn k (fun s => sumn k (fun t => nu e s t * P e s t)))).
  { rewrite <- sumn_opp. apply sumn_ext. intros. rewrite <- sumn_opp. apply sumn_ext. intros.
    rewrite <- sumn_opp. apply sumn_ext. intros. ring. }
  rewrite B. ring.
Qed.

(** flat encoding of a labelling *)
Definition encode (n k : nat) (edges : list (nat * nat)) (y : nat -> nat) : list Qc :=
  tab1 (n * k) (fun j => one_hot_mu y (j / k) (j mod k)) ++
  tab1 (length edges * (k * k)) (fun j => one_hot_nu edges y (j / (k * k)) (j mod (k * k) / k) ((j mod (k * k)) mod k)).
Lemma encode_length n k edges y : length (encode n k edges y) = (n * k + length edges * (k * k))%nat.
Proof. unfold encode. rewrite app_length, !tab1_length. reflexivity. Qed.
Lemma div_mod_pair k i s : (s < k)%nat -> ((i * k + s) / k = i /\ (i * k + s) mod k = s)%nat.
Proof.
  intro H. split.
  - rewrite Nat.div_add_l, Nat.div_small by lia. lia.
  - rewrite Nat.add_comm, Nat.mod_add by lia. apply Nat.mod_small, H.
Qed.
Lemma encode_mu n k edges y i s : (i < n)%nat -> (s < k)%nat -> var_mu k (encode n k edges y) i s = one_hot_mu y i s.
Proof.
  intros Hi Hs. assert (i * k + s < n * k)%nat by nia. unfold var_mu, encode, get1. rewrite app_nth1 by (rewrite tab1_length; lia).
  fold (get1 (tab1 (n * k) (fun j => one_hot_mu y (j / k) (j mod k))) (i * k + s)). rewrite get1_tab1 by assumption.
  destruct (div_mod_pair k i s Hs) as [-> ->]. reflexivity.
Qed.
Lemma encode_nu n k edges y e s t : (e < length edges)%nat -> (s < k)%nat -> (t < k)%nat ->
  var_nu n k (encode n k edges y) e s t = one_hot_nu edges y e s t.
Proof.
  intros He Hs Ht. assert (B : (s * k + t < k * k)%nat) by nia. unfold var_nu, encode, get1.
  rewrite app_nth2 by (rewrite tab1_length; lia). rewrite tab1_length.
  replace (n * k + (e * (k * k) + (s * k + t)) - n * k)%nat with (e * (k * k) + (s * k + t))%nat by lia.
  match goal with |- nth ?i ?l 0 = _ => fold (get1 l i) end. rewrite get1_tab1 by nia.
  destruct (div_mod_pair (k * k) e (s * k + t) B) as [-> ->]. destruct (div_mod_pair k s t Ht) as [-> ->]. reflexivity.
Qed.

Lemma local_polytope_ext n k edges mu mu' nu nu' : graph_edges n edges ->
  (forall i s, (i < n)%nat -> (s < k)%nat -> mu i s = mu' i s) ->
  (forall e s t, (e < length edges)%nat -> (s < k)%nat -> (t < k)%nat -> nu e s t = nu' e s t) ->
  local_polytope n k edges mu nu -> local_polytope n k edges mu' nu'.
Proof.
  intros Hg H1 H2 [P1 P2 P3 P4 P5]. constructor.
  - intros. rewrite <- H1 by assumption. auto.
  - intros. rewrite <- H2 by assumption. auto.
  - intros i Hi. rewrite <- (P3 i Hi). apply sumn_ext. intros. symmetry. auto.
  - intros e s He Hs. destruct (graph_edges_nth _ _ _ Hg He). rewrite <- H1, <- P4 by assumption. apply sumn_ext. intros. symmetry. auto.
  - intros e s He Hs. destruct (graph_edges_nth _ _ _ Hg He). rewrite <- H1, <- P5 by assumption. apply sumn_ext. intros. symmetry. auto.
Qed.

(** ** the problem built for given potentials *)
Lemma lp_problem_ok U p edges n k :
  mat_ok U -> mrows U = n -> mcols U = k -> (0 < n)%nat -> (0 < k)%nat ->
  graph_edges n edges -> pw_ok p -> pw_shape p (length edges) k ->
  exists pws pb,
    validate_params U p (length edges) = Ok (k, pws) /\
    lp_build (mat_neg U) edges (map (map (map Qcopp)) pws) = Ok pb /\
    lp_rows pb = (n + length edges * (2 * k - 1))%nat /\
    (forall x, feasible pb x <->
       length x = (n * k + length edges * (k * k))%nat /\ local_polytope n k edges (var_mu k x) (var_nu n k x)) /\
    (forall x, feasible pb x ->
       dot (lp_c pb) x = - marginal_score n k edges (mget U) (pw_table p) (var_mu k x) (var_nu n k x)) /\
    (forall y, labelling n k y -> exists x, feasible pb x /\ dot (lp_c pb) x = - score n edges (mget U) (pw_table p) (lab y) /\
       (forall i s, (i < n)%nat -> (s < k)%nat -> var_mu k x i s = one_hot_mu (lab y) i s)).
Proof.
  intros HU Hr Hc Hn Hk Hg Hpo Hp.
  destruct (validate_ok U p edges k Hc) as [pws [E [HL HT]]]; [destruct p; exact Hp|].
  exists pws. destruct (lp_build_ok (mat_neg U) edges (map (map (map Qcopp)) pws) n k Hr Hc Hn Hk) as [pb [EB [V [R [C [B A]]]]]].
  exists pb. split; [exact E|]. split; [exact EB|]. split; [exact R|].
  assert (FI := fun x => lp_feasible_iff pb edges n k x Hk Hg V R B A). split; [exact FI|].
  assert (HD : Forall (fun a => mat_ok (Mat k k a)) pws).
  { apply Forall_forall. intros a Ha. apply (In_nth _ _ []) in Ha. destruct Ha as [e [He <-]]. rewrite HL in He.
    rewrite HT by exact He. destruct p as [m|n0 n1 n2 d].
    - destruct Hp as [H1 H2]. simpl in Hpo. destruct m as [r c dd]. simpl in *. subst. exact Hpo.
    - destruct Hp as [H1 [H2 [H3 H4]]]. destruct Hpo as [_ Hd]. subst. rewrite Forall_forall in Hd. apply Hd, nth_In. lia. }
  assert (OB : forall x, feasible pb x ->
       dot (lp_c pb) x = - marginal_score n k edges (mget U) (pw_table p) (var_mu k x) (var_nu n k x)).
  { intros x Hx. apply FI in Hx. destruct Hx as [HX _]. rewrite C.
    rewrite (var_objective n k edges (mat_neg U) (map (map (map Qcopp)) pws) x); auto.
    - rewrite <- marginal_score_neg. apply marginal_score_ext; auto.
      + intros i s _ _. unfold mget, mat_neg. simpl. apply get2_neg.
      + intros e s t He _ _. rewrite (nth_map_in _ _ _ []) by lia. rewrite get2_neg, HT by exact He. destruct p; reflexivity.
    - apply mat_neg_ok, HU.
    - rewrite map_length. exact HL.
    - apply neg_tables_ok, HD. }
  split; [exact OB|]. intros y Hy.
  assert (Hy' : forall i, (i < n)%nat -> (lab y i < k)%nat) by (intros; eapply labelling_lt; eauto).
  assert (Fe : feasible pb (encode n k edges (lab y))).
  { apply FI. split; [apply encode_length|].
    apply (local_polytope_ext n k edges (one_hot_mu (lab y)) _ (one_hot_nu edges (lab y))); auto.
    - intros. symmetry. apply encode_mu; assumption.
    - intros. symmetry. apply encode_nu; assumption.
    - apply one_hot_local; assumption. }
  exists (encode n k edges (lab y)). split; [exact Fe|]. split.
  - rewrite OB by exact Fe. f_equal. rewrite <- (one_hot_score n k edges (mget U) (pw_table p) (lab y)) by assumption.
    apply marginal_score_ext; auto; intros; [apply encode_mu|apply encode_nu]; assumption.
  - intros. apply encode_mu; assumption.
Qed.

(** ** decoding *)
Lemma argmax_rows_ok m n k : mrows m = n -> mcols m = k -> (0 < k)%nat ->
  exists y, argmax_rows m = Ok y /\ labelling n k y /\
    forall i s, (i < n)%nat -> (s < k)%nat -> mget m i s <= mget m i (lab y i).
Proof.
  intros Hr Hc Hk. unfold argmax_rows. rewrite Hr, Hc.
  assert (Hdec : forall i, exists t, np_argmax (tab1 k (mget m i)) = Ok t /\ (t < k)%nat /\
     forall s, (s < k)%nat -> mget m i s <= mget m i t).
  { intro i. destruct (np_argmax_ok (tab1 k (mget m i))) as [t Et]; [rewrite tab1_length; exact Hk|].
    destruct (np_argmax_spec _ _ Et) as [H1 [H2 _]]. rewrite tab1_length in *. exists t. split; auto. split; auto.
    intros s Hs. specialize (H2 s Hs). rewrite !get1_tab1 in H2 by assumption. exact H2. }
  assert (EM : exists y, mapM (fun i => np_argmax (tab1 k (mget m i))) (seq 0 n) = Ok y).
  { generalize (seq 0 n). induction l as [|v l [y Ey]]; simpl; eauto.
    destruct (Hdec v) as [t [Et _]]. rewrite Et, Ey. simpl. eauto. }
  destruct EM as [y EM]. exists y. split; [exact EM|].
  assert (HLy := mapM_length _ _ _ EM). rewrite seq_length in HLy.
  assert (Hy : forall v, (v < n)%nat -> np_argmax (tab1 k (mget m v)) = Ok (lab y v)).
  { intros v Hv. assert (Q := mapM_nth _ _ _ v O O EM). rewrite seq_length in Q. specialize (Q Hv).
    rewrite seq_nth in Q by exact Hv. exact Q. }
  split.
  - split; auto. apply Forall_forall. intros s Hs. apply (In_nth _ _ O) in Hs. destruct Hs as [v [Hv <-]].
    rewrite HLy in Hv. specialize (Hy v Hv). destruct (Hdec v) as [t [Et [Ht _]]]. rewrite Hy in Et.
    injection Et as Et. unfold lab in Et. rewrite Et. exact Ht.
  - intros v s Hv Hs. destruct (Hdec v) as [t [Et [Ht Hm]]]. rewrite (Hy v Hv) in Et. injection Et as Et. rewrite Et. auto.
Qed.

(** an integral point decodes to its labelling *)
Lemma integral_decode n k edges mu nu y : (0 < k)%nat -> local_polytope n k edges mu nu ->
  (forall i s, (i < n)%nat -> (s < k)%nat -> mu i s = 0 \/ mu i s = 1) ->
  labelling n k y -> (forall i s, (i < n)%nat -> (s < k)%nat -> mu i s <= mu i (lab y i)) ->
  forall i s, (i < n)%nat -> (s < k)%nat -> mu i s = one_hot_mu (lab y) i s.
Proof.
  intros Hk [P1 P2 P3 P4 P5] HI Hy Hm i s Hi Hs.
  assert (Hyi : (lab y i < k)%nat) by (eapply labelling_lt; eauto).
  assert (Y1 : mu i (lab y i) = 1).
  { destruct (HI i (lab y i) Hi Hyi) as [Z|Z]; auto. exfalso.
    assert (sumn k (mu i) = 0).
    { apply sumn_zero. intros t Ht. apply Qcle_antisym; [rewrite <- Z; auto|auto]. }
    rewrite P3 in H by exact Hi. discriminate H. }
  unfold one_hot_mu. destruct (Nat.eqb_spec s (lab y i)) as [->|N]; [exact Y1|].
  destruct (HI i s Hi Hs) as [Z|Z]; auto. exfalso.
  assert (sumn k (fun t => (ind (t =? lab y i)%nat + ind (t =? s)%nat) * mu i t) <= sumn k (mu i)).
  { apply sumn_le. intros t Ht. specialize (P1 i t Hi Ht). destruct (Nat.eqb_spec t (lab y i)), (Nat.eqb_spec t s); unfold ind; try congruence.
    - replace ((1 + 0) * mu i t) with (mu i t) by ring. apply Qcle_refl.
    - replace ((0 + 1) * mu i t) with (mu i t) by ring. apply Qcle_refl.
    - replace ((0 + 0) * mu i t) with 0 by ring. exact P1. }
  rewrite (sumn_ext k _ (fun t => ind (t =? lab y i)%nat * mu i t + ind (t =? s)%nat * mu i t)) in H by (intros; ring).
  rewrite sumn_plus, !sumn_pick, P3, Y1, Z in H by assumption. revert H. vm_compute. auto.
Qed.

Lemma close_one n k m : mrows m = n -> mcols m = k -> (forall i, (i < n)%nat -> sumn k (mget m i) = 1) ->
  forallb (fun i => Qcltb (Qcabs (sumn (mcols m) (mget m i) - 1)) tenth4) (seq 0 (mrows m)) = true.
Proof.
  intros -> -> H. apply forallb_forall. intros i Hi. apply in_seq in Hi. rewrite H by lia.
  vm_compute. reflexivity.
Qed.

Lemma inference_lp_ok solve U p edges n k pws pb x (relaxed : bool) :
  mat_ok U -> mrows U = n -> mcols U = k -> (0 < n)%nat -> (0 < k)%nat ->
  graph_edges n edges -> pw_ok p -> pw_shape p (length edges) k ->
  validate_params U p (length edges) = Ok (k, pws) ->
  lp_build (mat_neg U) edges (map (map (map Qcopp)) pws) = Ok pb ->
  solve pb = Ok x -> optimal pb x ->
  exists a e, inference_lp solve U p edges relaxed = Ok (a, e) /\
    (forall y, labelling n k y -> score n edges (mget U) (pw_table p) (lab y) <= - e) /\
    if relaxed
    then exists um pm, a = Marginals um pm /\ mrows um = n /\ mcols um = k /\
           mrows pm = length edges /\ mcols pm = (k * k)%nat /\
           local_polytope n k edges (mget um) (fun e s t => mget pm e (s * k + t)) /\
           marginal_score n k edges (mget U) (pw_table p) (mget um) (fun e s t => mget pm e (s * k + t)) = - e /\
           (forall mu nu, local_polytope n k edges mu nu ->
              marginal_score n k edges (mget U) (pw_table p) mu nu <= - e)
    else exists y, a = Labels y /\ labelling n k y /\
           ((forall i s, (i < n)%nat -> (s < k)%nat -> var_mu k x i s = 0 \/ var_mu k x i s = 1) ->
            maximiser n k edges (mget U) (pw_table p) y /\ score n edges (mget U) (pw_table p) (lab y) = - e).
Proof.
  intros HU Hr Hc Hn Hk Hg Hpo Hp EV EB ES [HF HO].
  destruct (lp_problem_ok U p edges n k HU Hr Hc Hn Hk Hg Hpo Hp) as [pws' [pb' [EV' [EB' [R [FI [OB LB]]]]]]].
  rewrite EV in EV'. injection EV' as <-. rewrite EB in EB'. injection EB' as <-.
  assert (FX := HF). apply FI in FX. destruct FX as [HX HPoly].
  unfold inference_lp. rewrite EV. cbn [bind]. unfold lp_general_graph.
  change (mcols (mat_neg U)) with (mcols U). change (mrows (mat_neg U)) with (mrows U). rewrite Hr, Hc, !Nat.eqb_refl. cbn [ensure bind].
  rewrite EB. cbn [bind]. rewrite ES. cbn [bind].
  rewrite reshape_ok by (rewrite firstn_length; lia). cbn [bind].
  rewrite reshape_ok by (rewrite skipn_length; lia). cbn [bind].
  set (um := mtab n k (fun i j => get1 (firstn (n * k) x) (i * k + j))).
  set (pm := mtab (length edges) (k * k) (fun i j => get1 (skipn (n * k) x) (i * (k * k) + j))).
  assert (GU : forall i s, (i < n)%nat -> (s < k)%nat -> mget um i s = var_mu k x i s).
  { intros i s Hi Hs. unfold um. rewrite mget_mtab by assumption. apply get1_firstn. nia. }
  assert (GP : forall e s t, (e < length edges)%nat -> (s < k)%nat -> (t < k)%nat -> mget pm e (s * k + t) = var_nu n k x e s t).
  { intros e s t He Hs Ht. unfold pm. rewrite mget_mtab by (try assumption; nia). rewrite get1_skipn. reflexivity. }
  assert (LM : local_polytope n k edges (mget um) (fun e s t => mget pm e (s * k + t))).
  { apply (local_polytope_ext n k edges (var_mu k x) _ (var_nu n k x)); auto; intros; symmetry; auto. }
  rewrite (close_one n k um) by (reflexivity || (intros i Hi; apply (lpo_one _ _ _ _ _ LM); exact Hi)). cbn [ensure bind].
  rewrite (close_one (length edges) (k * k) pm); [|reflexivity|reflexivity|].
  2:{ intros e He. rewrite sumn_mul. destruct (graph_edges_nth _ _ _ Hg He) as [Ha Hb].
      rewrite <- (lpo_one _ _ _ _ _ LM _ Ha). apply sumn_ext. intros s Hs. apply (lpo_fst _ _ _ _ _ LM); assumption. }
  cbn [ensure bind].
  assert (EO := OB x HF).
  assert (UB : forall y, labelling n k y -> score n edges (mget U) (pw_table p) (lab y) <= - dot (lp_c pb) x).
  { intros y Hy. destruct (LB y Hy) as [z [Fz [Oz _]]]. specialize (HO z Fz). rewrite Oz in HO.
    set (a := dot (lp_c pb) x) in *. set (b := score n edges (mget U) (pw_table p) (lab y)) in *. clearbody a b. qclra. }
  destruct relaxed.
  - eexists. eexists. split; [reflexivity|]. split; [exact UB|].
    exists um, pm. repeat (split; [reflexivity|]). split; [exact LM|]. split.
    + rewrite EO, Qcopp_involutive. apply marginal_score_ext; auto.
    + intros mu nu HL.
      (* flatten the given point *)
      set (z := tab1 (n * k) (fun j => mu (j / k) (j mod k))%nat ++
        tab1 (length edges * (k * k)) (fun j => nu (j / (k * k)) (j mod (k * k) / k) ((j mod (k * k)) mod k))%nat).
      assert (Z1 : forall i s, (i < n)%nat -> (s < k)%nat -> var_mu k z i s = mu i s).
      { intros i s Hi Hs. assert (i * k + s < n * k)%nat by nia. unfold var_mu, z, get1. rewrite app_nth1 by (rewrite tab1_length; lia).
        match goal with |- nth ?i ?l 0 = _ => fold (get1 l i) end. rewrite get1_tab1 by assumption.
        destruct (div_mod_pair k i s Hs) as [-> ->]. reflexivity. }
      assert (Z2 : forall e s t, (e < length edges)%nat -> (s < k)%nat -> (t < k)%nat -> var_nu n k z e s t = nu e s t).
      { intros e s t He Hs Ht. assert (B : (s * k + t < k * k)%nat) by nia. unfold var_nu, z, get1.
        rewrite app_nth2 by (rewrite tab1_length; lia). rewrite tab1_length.
        replace (n * k + (e * (k * k) + (s * k + t)) - n * k)%nat with (e * (k * k) + (s * k + t))%nat by lia.
        match goal with |- nth ?i ?l 0 = _ => fold (get1 l i) end. rewrite get1_tab1 by nia.
        destruct (div_mod_pair (k * k) e (s * k + t) B) as [-> ->]. destruct (div_mod_pair k s t Ht) as [-> ->]. reflexivity. }
      assert (Fz : feasible pb z).
      { apply FI. split; [unfold z; rewrite app_length, !tab1_length; reflexivity|].
        apply (local_polytope_ext n k edges mu _ nu); auto; intros; symmetry; auto. }
      specialize (HO z Fz). rewrite (OB z Fz) in HO.
      rewrite (marginal_score_ext n k edges (mget U) (mget U) (pw_table p) (pw_table p) (var_mu k z) mu (var_nu n k z) nu) in HO by auto.
      set (a := dot (lp_c pb) x) in *. set (b := marginal_score n k edges (mget U) (pw_table p) mu nu) in *. clearbody a b. qclra.
  - destruct (argmax_rows_ok um n k eq_refl eq_refl Hk) as [y [Ey [Hy Hm]]].
    rewrite Ey. cbn [bind]. eexists. eexists. split; [reflexivity|]. split; [exact UB|].
    exists y. split; [reflexivity|]. split; [exact Hy|]. intro HI.
    assert (OH : forall i s, (i < n)%nat -> (s < k)%nat -> var_mu k x i s = one_hot_mu (lab y) i s).
    { apply (integral_decode n k edges (var_mu k x) (var_nu n k x) y); auto.
      intros i s Hi Hs. rewrite <- !GU by (try assumption; eapply labelling_lt; eauto). auto. }
    assert (Hy' : forall i, (i < n)%nat -> (lab y i < k)%nat) by (intros; eapply labelling_lt; eauto).
    assert (SC : score n edges (mget U) (pw_table p) (lab y) = - dot (lp_c pb) x).
    { rewrite EO, Qcopp_involutive. rewrite <- (one_hot_score n k edges (mget U) (pw_table p) (lab y)) by assumption.
      symmetry. apply marginal_score_ext; auto. apply (one_hot_forced n k edges (var_mu k x) (var_nu n k x) (lab y)); assumption. }
    split; [|exact SC]. split; [exact Hy|]. intros y' Hy''. rewrite SC. apply UB. exact Hy''.
Qed.

(** solve_lp *)
Lemma solve_lp_neg solve U edges P :
  (mrows P = mcols U -> mcols P = mcols U ->
   inference_lp solve U (Pw2 P) edges true =
     match solve_lp solve (mat_neg U) edges (mat_neg P) with Ok (um, pm, e) => Ok (Marginals um pm, e) | Err e => Err e end) /\
  (mrows P <> mcols U \/ mcols P <> mcols U -> solve_lp solve U edges P = Err ValueError).
Proof.
  split.
  - intros HR HC. unfold inference_lp, solve_lp, validate_params. rewrite HR, HC, Nat.eqb_refl. cbn [andb bind mat_neg mcols mrows mdat]. rewrite HR, HC, Nat.eqb_refl. cbn [ensure bind].
    replace (map (map (map Qcopp)) (repeat (mdat P) (length edges))) with (repeat (map (map Qcopp) (mdat P)) (length edges)) by (induction (length edges) as [|n IH]; [reflexivity|cbn; rewrite IH; reflexivity]).
    unfold mat_neg at 1. destruct (lp_general_graph _ _ _ _ _ _ _) as [[[um pm] e]|e]; reflexivity.
  - intros H. unfold solve_lp. destruct (Nat.eqb_spec (mcols U) (mrows P)) as [Q|]; [|reflexivity]. cbn [ensure bind]. unfold lp_general_graph.
    rewrite Q, Nat.eqb_refl. cbn [ensure bind]. destruct (Nat.eqb_spec (mrows P) (mcols P)) as [Q2|]; [|reflexivity]. exfalso. destruct H as [H|H]; apply H; congruence.
Qed.
