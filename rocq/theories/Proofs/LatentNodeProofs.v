(** LatentNodeCRF: labellings of visible and hidden nodes, potentials, joint feature. *)
From Verif Require Import Model.LatentNode Spec.GraphSpec Spec.SolverSpec
  Proofs.Arrays Proofs.SymProofs Proofs.EnergyProofs Proofs.GraphCRFProofs Proofs.LossProofs Proofs.CRFProofs Proofs.EdgeFeatureProofs
  Proofs.MaxProdProofs Proofs.LatentProofs Proofs.LatentProofs2 Spec.LatentNodeSpec.

(** ** labellings *)
Lemma filter_low L y : Forall (fun s => (s < L)%nat) y -> filter (fun s => s <? L)%nat y = y.
Proof. induction 1 as [|s y H F IH]; [reflexivity|]. cbn [filter]. apply Nat.ltb_lt in H. rewrite H, IH. reflexivity. Qed.
Lemma filter_high L K z : Forall (fun s => (L <= s < L + K)%nat) z -> filter (fun s => s <? L)%nat z = [].
Proof.
  induction 1 as [|s z H F IH]; [reflexivity|]. cbn [filter]. replace (s <? L)%nat with false by (symmetry; apply Nat.ltb_ge; lia). exact IH.
Qed.
Lemma filter_app' {A} (f : A -> bool) a b : filter f (a ++ b) = filter f a ++ filter f b.
Proof. induction a as [|x a IH]; [reflexivity|]. cbn [filter app]. destruct (f x); rewrite IH; reflexivity. Qed.
Lemma completes_label L K nh y h : Forall (fun s => (s < L)%nat) y -> completes L K nh y h -> filter (fun s => s <? L)%nat h = y.
Proof. intros HY [z [-> [_ HZ]]]. rewrite filter_app', (filter_low _ _ HY), (filter_high _ _ _ HZ). apply app_nil_r. Qed.
Lemma completes_length L K nh y h : completes L K nh y h -> length h = (length y + nh)%nat.
Proof. intros [z [-> [HL _]]]. rewrite app_length, HL. reflexivity. Qed.
Lemma completes_visible L K nh y h i : completes L K nh y h -> (i < length y)%nat -> lab h i = lab y i.
Proof. intros [z [-> _]] Hi. unfold lab. apply app_nth1. exact Hi. Qed.
Lemma completes_hidden L K nh y h i : completes L K nh y h -> (length y <= i < length y + nh)%nat -> (L <= lab h i < L + K)%nat.
Proof.
  intros [z [-> [HL HZ]]] Hi. unfold lab. rewrite app_nth2 by lia. rewrite Forall_forall in HZ. apply HZ, nth_In. lia.
Qed.
Lemma completes_intro L K nh y h : length h = (length y + nh)%nat -> (forall i, (i < length y)%nat -> lab h i = lab y i) ->
  (forall i, (length y <= i < length y + nh)%nat -> (L <= lab h i < L + K)%nat) -> completes L K nh y h.
Proof.
  intros HL HV HH. exists (skipn (length y) h). split; [|split].
  - rewrite <- (firstn_skipn (length y) h) at 1. f_equal. apply (nth_ext _ _ O O); [rewrite firstn_length; lia|].
    intros i Hi. rewrite firstn_length in Hi. change (nth i y O) with (lab y i). rewrite <- (HV i ltac:(lia)). unfold lab.
    rewrite <- (firstn_skipn (length y) h) at 2. rewrite app_nth1 by (rewrite firstn_length; lia). reflexivity.
  - rewrite skipn_length. lia.
  - apply Forall_forall. intros s Hs. apply In_nth with (d := O) in Hs. destruct Hs as [i [Hi <-]]. rewrite skipn_length in Hi.
    specialize (HH (length y + i)%nat ltac:(lia)). unfold lab in HH. rewrite <- (firstn_skipn (length y) h) in HH.
    rewrite app_nth2 in HH by (rewrite firstn_length; lia). rewrite firstn_length in HH.
    replace (length y + i - Nat.min (length y) (length h))%nat with i in HH by lia. exact HH.
Qed.
Lemma completes_labelling L K nv nh y h : labelling nv L y -> completes L K nh y h -> labelling (nv + nh) (K + L) h.
Proof.
  intros [HL HF] [z [-> [HZ FZ]]]. split; [rewrite app_length; lia|]. apply Forall_app. split.
  - apply Forall_impl with (2 := HF). intros s Hs. cbv beta in *. lia.
  - apply Forall_impl with (2 := FZ). intros s Hs. cbv beta in *. lia.
Qed.
Lemma two_level_labelling L K nv nh h : two_level L K nv nh h -> labelling (nv + nh) (K + L) h.
Proof. intros [y [H1 H2]]. exact (completes_labelling _ _ _ _ _ _ H1 H2). Qed.
(** which states are meant for node [i] *)
Definition legal (L nv i s : nat) : bool := Bool.eqb (i <? nv)%nat (s <? L)%nat.
Lemma two_level_legal L K nv nh h : two_level L K nv nh h -> forall i, (i < nv + nh)%nat -> legal L nv i (lab h i) = true.
Proof.
  intros [y [[H1 H1'] H2]] i Hi. unfold legal. destruct (Nat.ltb_spec i nv) as [Hv|Hv].
  - rewrite (completes_visible _ _ _ _ _ _ H2) by lia. assert (Q : (lab y i < L)%nat) by (apply (labelling_lt nv); [split; assumption|exact Hv]).
    apply Nat.ltb_lt in Q. rewrite Q. reflexivity.
  - pose proof (completes_hidden _ _ _ _ _ i H2 ltac:(lia)) as [Q _]. apply Nat.ltb_ge in Q. rewrite Q. reflexivity.
Qed.
Lemma legal_two_level L K nv nh h : labelling (nv + nh) (K + L) h -> (forall i, (i < nv + nh)%nat -> legal L nv i (lab h i) = true) -> two_level L K nv nh h.
Proof.
  intros HH HG. assert (HL := proj1 HH). exists (firstn nv h). assert (LY : length (firstn nv h) = nv) by (rewrite firstn_length; lia).
  assert (V : forall i, (i < nv)%nat -> lab (firstn nv h) i = lab h i).
  { intros i Hi. unfold lab. rewrite <- (firstn_skipn nv h) at 2. rewrite app_nth1 by (rewrite firstn_length; lia). reflexivity. }
  split.
  - split; [exact LY|]. apply Forall_forall. intros s Hs. apply In_nth with (d := O) in Hs. destruct Hs as [i [Hi <-]]. rewrite LY in Hi.
    change (nth i (firstn nv h) O) with (lab (firstn nv h) i). rewrite V by exact Hi. specialize (HG i ltac:(lia)). unfold legal in HG.
    apply Nat.ltb_lt in Hi. rewrite Hi in HG. apply Nat.ltb_lt. destruct (lab h i <? L)%nat; [reflexivity|discriminate HG].
  - apply completes_intro; rewrite LY; [exact HL|intros i Hi; symmetry; apply V, Hi|]. intros i Hi. specialize (HG i ltac:(lia)). unfold legal in HG.
    replace (i <? nv)%nat with false in HG by (symmetry; apply Nat.ltb_ge; lia). pose proof (labelling_lt _ _ _ i HH ltac:(lia)).
    destruct (Nat.ltb_spec (lab h i) L); [discriminate HG|lia].
Qed.
Lemma two_level_exists L K nv nh y : labelling nv L y -> ((0 < K)%nat \/ nh = O) -> exists h, completes L K nh y h.
Proof.
  intros HY HK. exists (y ++ repeat L nh), (repeat L nh). split; [reflexivity|]. rewrite repeat_length. split; [reflexivity|].
  apply Forall_forall. intros s Hs. apply repeat_spec in Hs as Q. subst s. destruct HK as [HK| ->]; [lia|destruct Hs].
Qed.
Lemma label_two_level g nv nh h : two_level (ln_labels g) (ln_hidden g) nv nh h ->
  labelling nv (ln_labels g) (ln_label_from_latent g h) /\ completes (ln_labels g) (ln_hidden g) nh (ln_label_from_latent g h) h.
Proof. intros [y [H1 H2]]. unfold ln_label_from_latent. rewrite (completes_label _ _ _ _ _ (proj2 H1) H2). split; assumption. Qed.

(** ** potentials *)
Lemma ravel_in U n k i s : mat_ok U -> mrows U = n -> mcols U = k -> (i < n)%nat -> (s < k)%nat -> In (mget U i s) (ravel U).
Proof.
  intros OU RU CU Hi Hs. unfold ravel, mget, get2, get1. apply in_concat. exists (nth i (mdat U) []). destruct OU as [O1 O2].
  assert (I : In (nth i (mdat U) []) (mdat U)) by (apply nth_In; rewrite O1, RU; exact Hi). split; [exact I|]. apply nth_In.
  rewrite Forall_forall in O2. rewrite (O2 _ I), CU. exact Hs.
Qed.
Lemma max_entry_ok U n k : mat_ok U -> mrows U = n -> mcols U = k -> (0 < n)%nat -> (0 < k)%nat ->
  exists mx, np_max (ravel U) = Ok mx /\ 1 <= Qcmax mx 1 /\ forall i s, (i < n)%nat -> (s < k)%nat -> mget U i s <= Qcmax mx 1.
Proof.
  intros OU RU CU Hn Hk. pose proof (ravel_in U n k 0 0 OU RU CU Hn Hk) as I.
  assert (exists mx, np_max (ravel U) = Ok mx) as [mx E] by (apply np_max_ok; destruct (ravel U); [destruct I|cbn; lia]).
  exists mx. split; [exact E|]. split; [unfold Qcmax; destruct (Qcleb_spec mx 1); qclra|]. intros i s Hi Hs.
  pose proof (proj2 (np_max_spec _ _ E) _ (ravel_in U n k i s OU RU CU Hi Hs)). unfold Qcmax. destruct (Qcleb_spec mx 1); qclra.
Qed.

Section Node.
Variable g : ln_crf.
Variable x : ln_x.
Variable nv : nat.
Hypothesis HX : node_instance g x nv.
Let n := (nv + lx_hidden x)%nat.
Let S := ln_states g.
Let L := ln_labels g.
Let I := ln_input_states g.
Let F := ln_features g.

Lemma nodes_eq : ln_nodes g x = n.
Proof. unfold ln_nodes, n. destruct HX as [_ _ R _]. rewrite R. destruct (ln_node_features g); lia. Qed.
Lemma visible_eq : ln_visible g x = nv.
Proof.
  unfold ln_visible. destruct HX as [_ _ R _]. rewrite R. destruct (ln_node_features g); [|lia].
  replace (lx_hidden x <=? nv + lx_hidden x)%nat with true by (symmetry; apply Nat.leb_le; lia). lia.
Qed.
Lemma check_x_ok : ln_check_x g x = Ok tt.
Proof. unfold ln_check_x. destruct HX as [_ C _ _]. rewrite C, Nat.eqb_refl. reflexivity. Qed.
Lemma unary_core_ok w : (I * F <= length w)%nat -> (0 < n)%nat -> (0 < S)%nat ->
  exists U M, ln_unary_core g x w = Ok U /\ mat_ok U /\ mrows U = n /\ mcols U = S /\ 1 <= M /\
  (forall i s, (i < n)%nat -> (s < S)%nat -> mget U i s = if legal L nv i s then node_score g x nv w i s else - ofN 100 * M) /\
  (forall i s, (i < n)%nat -> (s < S)%nat -> node_score g x nv w i s <= M).
Proof.
  intros HW Hn HS. unfold ln_unary_core. rewrite visible_eq, nodes_eq. fold I F S L. destruct HX as [OK C R _].
  rewrite reshape_ok by (rewrite firstn_length; lia). cbn [bind]. rewrite mat_mul_ok by exact C. cbn [bind].
  change (mcols (mat_T (mtab I F ?f))) with I. rewrite C. fold F.
  match goal with |- context [if ln_node_features g then ?o else _] => set (obs := o) end.
  assert (GO : forall i s, (i < mrows (lx_features x))%nat -> (s < I)%nat -> mget obs i s = unary_score F w (mget (lx_features x) i) s).
  { intros i s Hi Hs. unfold obs. rewrite mget_mtab by assumption. unfold unary_score. apply sumn_ext. intros f Hf.
    rewrite mget_T by (cbn [mrows mcols mtab]; assumption). rewrite mget_mtab by assumption. rewrite get1_firstn by nia. ring. }
  match goal with |- context [np_max (ravel ?u')] => set (u := u') end.
  assert (QU : mat_ok u /\ mrows u = n /\ mcols u = S /\ forall i s, (i < n)%nat -> (s < S)%nat -> mget u i s = node_score g x nv w i s).
  { unfold u, node_score. fold L F. unfold I, ln_input_states in GO. destruct (ln_node_features g) eqn:NF.
    - split; [apply mtab_ok|]. split; [exact R|]. split; [unfold obs, I, ln_input_states; rewrite NF; reflexivity|]. intros i s Hi Hs. cbn [orb].
      apply GO; [rewrite R; exact Hi|exact Hs].
    - split; [apply mtab_ok|]. split; [reflexivity|]. split; [reflexivity|]. intros i s Hi Hs. rewrite mget_mtab by assumption. cbn [orb].
      destruct (Nat.ltb_spec i nv); cbn [andb]; [|reflexivity]. destruct (Nat.ltb_spec s L); [|reflexivity]. apply GO; [rewrite R; lia|assumption]. }
  clearbody u. destruct QU as [OU [RU [CU GU]]]. destruct (max_entry_ok u n S OU RU CU Hn HS) as [mx [E [M1 M2]]].
  rewrite E. cbn [bind]. eexists. exists (Qcmax mx 1). split; [reflexivity|]. split; [apply mtab_ok|]. split; [reflexivity|]. split; [reflexivity|]. split; [exact M1|]. split.
  - intros i s Hi Hs. rewrite mget_mtab by assumption. unfold legal. rewrite GU by assumption.
    destruct (Nat.ltb_spec i nv), (Nat.ltb_spec s L); cbn [Bool.eqb];
      repeat match goal with |- context [(?a <=? ?b)%nat] => destruct (Nat.leb_spec a b); try lia end; reflexivity.
  - intros i s Hi Hs. rewrite <- GU by assumption. apply M2; assumption.
Qed.

(** um[:n_visible, :n_input_states].T dot features *)
Lemma acc_ok um w : mrows um = n -> mcols um = S -> (I * F <= length w)%nat ->
  exists acc, ln_unaries_acc g um (lx_features x) = Ok acc /\ length (ravel acc) = (I * F)%nat /\
  dot (firstn (I * F) w) (ravel acc) = sumn n (fun i => sumn S (fun s => mget um i s * node_score g x nv w i s)).
Proof.
  intros RU CU HW. unfold ln_unaries_acc. fold I. rewrite RU, CU. destruct HX as [OK C R _].
  assert (RN : (mrows (lx_features x) <= n)%nat) by (rewrite R; unfold n; destruct (ln_node_features g); lia).
  assert (IS : (I <= S)%nat) by (unfold I, S, ln_input_states, ln_states; destruct (ln_node_features g); lia).
  rewrite (Nat.min_r n) by exact RN. rewrite (Nat.min_r S) by exact IS. set (r := mrows (lx_features x)) in *.
  rewrite mat_mul_ok by reflexivity. cbn [mrows mcols mtab mat_T]. rewrite C. fold F.
  eexists. split; [reflexivity|]. split; [apply ravel_mtab_length|].
  unfold ravel, mtab, mdat. rewrite dot_concat_tab2 by (rewrite firstn_length; lia).
  transitivity (sumn I (fun s => sumn r (fun i => mget um i s * unary_score F w (mget (lx_features x) i) s))).
  - apply sumn_ext. intros s Hs. unfold unary_score. rewrite (sumn_ext r _ (fun i => sumn F (fun f => mget um i s * (get1 w (s * F + f) * mget (lx_features x) i f)))) by (intros; symmetry; apply sumn_mult_l).
    rewrite sumn_swap. apply sumn_ext. intros f Hf. rewrite get1_firstn by nia. rewrite <- sumn_mult_l. apply sumn_ext. intros i Hi.
    fold (mtab r I (mget um)). fold (mat_T (mtab r I (mget um))). rewrite mget_T by assumption. rewrite mget_mtab by assumption. ring.
  - rewrite sumn_swap. unfold I, ln_input_states. unfold node_score. fold L F. destruct (ln_node_features g) eqn:NF.
    + replace n with r by (unfold r; rewrite R; reflexivity). apply sumn_ext. intros i Hi. reflexivity.
    + replace r with nv by (rewrite R; lia). unfold n. rewrite sumn_split.
      rewrite (sumn_zero (lx_hidden x)).
      * rewrite Qcplus_0_r. apply sumn_ext. intros i Hi. apply Nat.ltb_lt in Hi. rewrite Hi. cbn [orb andb].
        fold L. replace S with (L + ln_hidden g)%nat by (unfold S, L, ln_states; lia). rewrite sumn_split. rewrite (sumn_zero (ln_hidden g)).
        -- rewrite Qcplus_0_r. apply sumn_ext. intros s Hs. apply Nat.ltb_lt in Hs. rewrite Hs. reflexivity.
        -- intros j _. replace (L + j <? L)%nat with false by (symmetry; apply Nat.ltb_ge; lia). ring.
      * intros j _. apply sumn_zero. intros s _. replace (nv + j <? nv)%nat with false by (symmetry; apply Nat.ltb_ge; lia). cbn [orb andb]. ring.
Qed.

(** the pairwise half, as a graph model without node features *)
Let g' := GraphCRF S 0 false.
Let x' := GraphX (Mat n 0 (repeat [] n)) (lx_edges x).
Lemma g'_valid : valid_x g' x'.
Proof.
  split; [|reflexivity|].
  - split; [apply repeat_length|]. apply Forall_forall. intros r Hr. apply repeat_spec in Hr. subst r. reflexivity.
  - exact (ni_edges _ _ _ HX).
Qed.
Lemma g'_size (w : list Qc) : length w = ln_size g -> length (skipn (I * F) w) = g_size g'.
Proof. intros HW. rewrite skipn_length, HW. unfold ln_size, g_size, g'. cbn [g_directed g_states g_features]. fold S I F. lia. Qed.
Lemma g'_pair w s t : pair_score S 0 false (skipn (I * F) w) s t = joint_score g w s t.
Proof. unfold pair_score, joint_score. rewrite get1_skipn. fold I F. f_equal. lia. Qed.
Lemma ln_pairwise_ok w : length w = ln_size g ->
  exists P, ln_pairwise g x w = Ok P /\ mat_ok P /\ mrows P = S /\ mcols P = S /\
  forall s t, (s < S)%nat -> (t < S)%nat -> mget P s t = joint_score g w s t.
Proof.
  intros HW. destruct (g_pairwise_ok g' x' (skipn (I * F) w) g'_valid (g'_size w HW)) as [P [E [O [R [C V]]]]]. exists P. split.
  - unfold g_pairwise in E. rewrite check_size_w_ok in E by (apply g'_size, HW). rewrite g_check_x_ok in E by apply g'_valid. cbn [bind g_directed g' g_states g_features] in E.
    rewrite Nat.mul_0_r in E. cbn [skipn] in E. unfold ln_pairwise. rewrite check_size_w_ok by exact HW. rewrite check_x_ok. exact E.
  - repeat (split; [assumption|]). intros s t Hs Ht. rewrite V by assumption. cbn [g_states g_features g_directed g']. apply g'_pair.
Qed.
Lemma ln_unary_ok w : length w = ln_size g -> ln_unary g x w = ln_unary_core g x w.
Proof. intros HW. unfold ln_unary. rewrite check_size_w_ok by exact HW. rewrite check_x_ok. reflexivity. Qed.
Lemma size_ge (w : list Qc) : length w = ln_size g -> (I * F <= length w)%nat.
Proof. intros HW. rewrite HW. unfold ln_size. fold I F. lia. Qed.

Lemma ln_joint_dot um pw w : mrows um = n -> mcols um = S -> mat_ok pw -> mrows pw = S -> mcols pw = S -> length w = ln_size g ->
  exists acc pwv, ln_unaries_acc g um (lx_features x) = Ok acc /\ compress_sym pw true = Ok pwv /\ length (ravel acc ++ pwv) = ln_size g /\
  dot w (ravel acc ++ pwv) = sumn n (fun i => sumn S (fun s => mget um i s * node_score g x nv w i s)) +
    sumn S (fun s => sumn S (fun t => joint_score g w s t * mget pw s t)).
Proof.
  intros RU CU OP RP CP HW. destruct (acc_ok um w RU CU (size_ge w HW)) as [acc [E [LA D]]].
  destruct (dot_joint_feature g' um pw (gx_features x') (skipn (I * F) w) n) as [acc0 [pwv [E1 [E2 [E3 E4]]]]];
    try assumption; try reflexivity; [apply g'_size, HW|].
  cbn [g_directed g' g_states g_features] in E2, E4. exists acc, pwv. split; [exact E|]. split; [exact E2|].
  assert (NIL : ravel acc0 = []).
  { rewrite mat_mul_ok in E1 by (cbn; exact RU). injection E1 as <-. apply length_zero_iff_nil.
    change (mcols (gx_features x')) with 0%nat. rewrite ravel_mtab_length. lia. }
  rewrite NIL in E3, E4. cbn [app] in E3, E4. rewrite app_length, LA, E3. split.
  - rewrite <- (g'_size w HW), skipn_length. pose proof (size_ge w HW). lia.
  - rewrite <- (firstn_skipn (I * F) w) at 1. rewrite dot_app by (rewrite firstn_length, LA; pose proof (size_ge w HW); lia). rewrite D, E4. f_equal.
    rewrite (sumn_zero n). 2:{ intros i _. apply sumn_zero. intros s _. unfold unary_score. rewrite sumn_O. ring. }
    rewrite Qcplus_0_l. apply sumn_ext. intros s Hs. apply sumn_ext. intros t Ht. rewrite g'_pair. reflexivity.
Qed.
Lemma pick_pairs (T : nat -> nat -> nat -> Qc) h : labelling n S h ->
  forall pw : nat -> nat -> nat -> Qc, (forall e s t, (e < length (lx_edges x))%nat -> (s < S)%nat -> (t < S)%nat ->
     pw e s t = ind (s =? lab h (fst (nth e (lx_edges x) (0,0)%nat)))%nat * ind (t =? lab h (snd (nth e (lx_edges x) (0,0)%nat)))%nat) ->
  sumn (length (lx_edges x)) (fun e => sumn S (fun s => sumn S (fun t => pw e s t * T e s t))) =
  sumn (length (lx_edges x)) (fun e => T e (lab h (fst (nth e (lx_edges x) (0,0)%nat))) (lab h (snd (nth e (lx_edges x) (0,0)%nat)))).
Proof.
  intros HH pw HP. apply sumn_ext. intros e He. destruct (graph_edges_nth _ _ e (ni_edges _ _ _ HX) He) as [A B].
  pose proof (labelling_lt _ _ _ _ HH A) as LA. pose proof (labelling_lt _ _ _ _ HH B) as LB.
  rewrite (sumn_ext S _ (fun s => ind (s =? lab h (fst (nth e (lx_edges x) (0,0)%nat)))%nat * T e s (lab h (snd (nth e (lx_edges x) (0,0)%nat))))).
  - rewrite (sumn_pick S _ (fun s => T e s _)); [reflexivity|exact LA].
  - intros s Hs. rewrite (sumn_ext S _ (fun t => ind (t =? lab h (snd (nth e (lx_edges x) (0,0)%nat)))%nat * (ind (s =? lab h (fst (nth e (lx_edges x) (0,0)%nat)))%nat * T e s t))).
    + rewrite (sumn_pick S _ (fun t => ind _ * T e s t)); [reflexivity|exact LB].
    + intros t Ht. rewrite HP by assumption. ring.
Qed.
Lemma pick_nodes V h (um : nat -> nat -> Qc) : labelling n S h -> (forall i s, (i < n)%nat -> (s < S)%nat -> um i s = ind (s =? lab h i)%nat) ->
  sumn n (fun i => sumn S (fun s => um i s * V i s)) = sumn n (fun i => V i (lab h i)).
Proof.
  intros HH HU. apply sumn_ext. intros i Hi. rewrite (sumn_ext S _ (fun s => ind (s =? lab h i)%nat * V i s)) by (intros s Hs; rewrite HU by assumption; reflexivity).
  apply sumn_pick. apply (labelling_lt n); assumption.
Qed.
Lemma ln_joint_discrete w h : length w = ln_size g -> labelling n S h ->
  exists psi, ln_joint_feature g x (LNDiscrete h) = Ok psi /\ length psi = ln_size g /\ dot w psi = node_total g x nv w h.
Proof.
  intros HW HH. destruct (g_marginals_discrete S n (lx_edges x) h HH (ni_edges _ _ _ HX)) as [um [pw [E [A1 [A2 [A3 [B1 [B2 [B3 [Mu Mp]]]]]]]]]].
  destruct (ln_joint_dot um pw w A1 A2 B3 B1 B2 HW) as [acc [pwv [E1 [E2 [E3 E4]]]]].
  exists (ravel acc ++ pwv). split; [|split; [exact E3|]].
  - unfold ln_joint_feature. rewrite check_x_ok. cbn [bind]. fold S. unfold g_marginals in E. rewrite (proj1 HH), Nat.eqb_refl in E. cbn [ensure bind] in E.
    rewrite E. cbn [bind fst snd]. rewrite E1. cbn [bind]. rewrite E2. reflexivity.
  - rewrite E4. unfold node_total, score. fold n. rewrite (pick_nodes (node_score g x nv w) h (mget um) HH Mu). f_equal.
    rewrite <- (pick_pairs (fun _ => joint_score g w) h HH (fun e s t => ind (s =? lab h (fst (nth e (lx_edges x) (0,0)%nat)))%nat * ind (t =? lab h (snd (nth e (lx_edges x) (0,0)%nat)))%nat)) by reflexivity.
    rewrite (sumn_swap (length (lx_edges x))). apply sumn_ext. intros s Hs. rewrite (sumn_swap (length (lx_edges x))). apply sumn_ext. intros t Ht.
    rewrite Mp by assumption. rewrite <- sumn_mult_l. apply sumn_ext. intros e He. ring.
Qed.
Lemma ln_joint_relaxed w um pw n_pw : length w = ln_size g -> (0 < S)%nat -> mrows um = n -> mcols um = S -> length pw = (n_pw * (S * S))%nat ->
  exists psi, ln_joint_feature g x (LNRelaxed um pw) = Ok psi /\ length psi = ln_size g /\
  dot w psi = sumn n (fun i => sumn S (fun s => mget um i s * node_score g x nv w i s)) +
    sumn n_pw (fun e => sumn S (fun s => sumn S (fun t => get1 pw ((e * S + s) * S + t) * joint_score g w s t))).
Proof.
  intros HW HS RU CU HP. unfold ln_joint_feature. rewrite check_x_ok. cbn [bind]. fold S. unfold sum_pairwise. rewrite HP.
  assert (HSS : (S * S <> 0)%nat) by nia. rewrite Nat.mod_mul, Nat.div_mul by exact HSS.
  replace (S =? 0)%nat with false by (symmetry; apply Nat.eqb_neq; lia). cbn [orb negb Nat.eqb bind fst snd].
  match goal with |- context [compress_sym ?p true] => destruct (ln_joint_dot um p w RU CU (mtab_ok _ _ _) eq_refl eq_refl HW) as [acc [pwv [E1 [E2 [E3 E4]]]]] end.
  rewrite E1. cbn [bind]. rewrite E2. cbn [bind]. eexists. split; [reflexivity|]. split; [exact E3|]. rewrite E4. f_equal.
  rewrite (sumn_swap n_pw). apply sumn_ext. intros s Hs. rewrite (sumn_swap n_pw). apply sumn_ext. intros t Ht. rewrite mget_mtab by assumption.
  rewrite <- sumn_mult_l. apply sumn_ext. intros e He. ring.
Qed.
End Node.
