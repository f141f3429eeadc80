(** The label trees of the multi-label example, full label graphs, random trees. *)
From Coq Require Import Permutation Lia.
From Verif Require Import Spec.ChowLiuSpec Spec.LabelSpec Spec.GraphSpec Spec.SolverSpec Proofs.Arrays Proofs.ForestLP Proofs.Kruskal Proofs.LossProofs Proofs.EnergyProofs
  Proofs.GraphCRFProofs Proofs.CRFProofs Proofs.MaxProdProofs Proofs.MultiLabelProofs Proofs.UnstructuredProofs Proofs.UnstructuredProofs2 Proofs.ChainProofs.

Lemma column_ok n y i : label_rows n y -> (i < n)%nat -> column y i = Ok (map (fun r => nth i r O) y).
Proof.
  intros H Hi. unfold column. induction H as [|r y Hr _ IH]; [reflexivity|]. cbn [mapM map]. rewrite (index_ok r i O) by (rewrite Hr; exact Hi).
  cbn [bind]. rewrite IH. reflexivity.
Qed.
Lemma information_ok info n y : label_rows n y -> mutual_information info n y = Ok (tab2 n n (label_info info y)).
Proof.
  intro H. unfold mutual_information, tab2, tab1.
  assert (R : forall l, Forall (fun i => (i < n)%nat) l -> forall l', Forall (fun i => (i < n)%nat) l' ->
    mapM (fun i => mapM (fun j => let! a := column y i in let! b := column y j in Ok (info a b)) l') l =
    Ok (map (fun i => map (fun j => label_info info y i j) l') l)).
  { intros l Hl l' Hl'. induction Hl as [|i l Hi _ IH]; [reflexivity|]. cbn [mapM map]. rewrite IH.
    replace (mapM (fun j => let! a := column y i in let! b := column y j in Ok (info a b)) l') with (Ok (map (fun j => label_info info y i j) l')); [reflexivity|].
    clear - H Hi Hl'. induction Hl' as [|j l' Hj _ IH]; [reflexivity|]. cbn [mapM map]. rewrite <- IH.
    rewrite (column_ok n y i H Hi), (column_ok n y j H Hj). reflexivity. }
  apply R; apply Forall_forall; intros i Hi; apply in_seq in Hi; lia.
Qed.
Lemma total_ext n M M' T : graph_edges n T -> (forall a b, (a < n)%nat -> (b < n)%nat -> M a b = M' a b) -> total M T = total M' T.
Proof.
  intros H E. unfold total. f_equal. apply map_ext_in. intros [a b] I. pose proof (proj1 (Forall_forall _ _) H (a, b) I) as [Ha Hb]. apply E; assumption.
Qed.
Lemma total_opp M T : total (fun a b => - M a b) T = - total M T.
Proof. induction T as [|e T IH]; [reflexivity|]. rewrite !total_cons, IH. ring. Qed.
Lemma total_sort M T : (forall a b, M a b = M b a) -> total M (map sort_edge T) = total M T.
Proof.
  intro S. induction T as [|[a b] T IH]; [reflexivity|]. cbn [map]. rewrite !total_cons, IH. f_equal. unfold sort_edge. cbn [fst snd].
  destruct (Nat.le_ge_cases a b) as [L|L]; [rewrite Nat.min_l, Nat.max_r by exact L; reflexivity|].
  rewrite Nat.min_r, Nat.max_l by exact L. apply S.
Qed.
Lemma spanning_ext n M M' T : (forall a b, (a < n)%nat -> (b < n)%nat -> M a b = M' a b) -> spanning_forest n M T -> spanning_forest n M' T.
Proof.
  intros E (H1 & H2 & H3). split; [|split; [exact H2|]].
  - revert H1. apply Forall_impl. intros e (A & B & C). rewrite <- E by assumption. auto.
  - intros a b Ha Hb N. apply H3; try assumption. rewrite E by assumption. exact N.
Qed.
Lemma spanning_edges n M T : spanning_forest n M T -> graph_edges n T.
Proof. intros [H _]. revert H. apply Forall_impl. tauto. Qed.
Lemma total_nonneg n M T : graph_edges n T -> (forall a b, (a < n)%nat -> (b < n)%nat -> 0 <= M a b) -> 0 <= total M T.
Proof.
  intros H P. induction H as [|[a b] T [Ha Hb] _ IH]; [apply Qcle_refl|]. rewrite total_cons. cbn [fst snd] in *. specialize (P a b Ha Hb). qclra.
Qed.
Lemma total_filter M T : total M (filter (fun e => negb (Qceqb (M (fst e) (snd e)) 0)) T) = total M T.
Proof.
  induction T as [|e T IH]; [reflexivity|]. cbn [filter]. rewrite total_cons. destruct (Qceqb_spec (M (fst e) (snd e)) 0) as [Q|Q]; cbn [negb].
  - rewrite IH, Q. ring.
  - rewrite total_cons, IH. reflexivity.
Qed.
Lemma opp_nonzero (q : Qc) : - q <> 0 <-> q <> 0.
Proof.
  split; intros H E; apply H; [rewrite E; reflexivity|]. replace q with (- - q) by ring. rewrite E. reflexivity.
Qed.
Lemma sort_edges_ok n T : graph_edges n T -> acyclic T -> Forall (fun e => (fst e < snd e)%nat /\ (snd e < n)%nat) (map sort_edge T).
Proof.
  intros H A. apply Forall_forall. intros e I. apply in_map_iff in I. destruct I as ([a b] & <- & I).
  pose proof (proj1 (Forall_forall _ _) H (a, b) I) as [Ha Hb]. cbn [fst snd] in Ha, Hb. unfold sort_edge. cbn [fst snd].
  assert (a <> b) by (intros ->; exact (acyclic_loop T b A I)). lia.
Qed.

Lemma chow_liu_ok info mst n y : label_rows n y -> minimum_spanning mst n (fun a b => - get2 (tab2 n n (label_info info y)) a b) ->
  exists T, chow_liu_tree info mst n y = Ok T /\ Forall (fun e => (fst e < snd e)%nat /\ (snd e < n)%nat) T /\ acyclic T /\
    (forall a b, (a < n)%nat -> (b < n)%nat -> label_info info y a b <> 0 -> connected T a b) /\
    ((forall a b, label_info info y a b = label_info info y b a) ->
     Forall (fun e => label_info info y (fst e) (snd e) <> 0) T /\
     ((forall a b, (a < n)%nat -> (b < n)%nat -> 0 <= label_info info y a b) ->
      forall T', graph_edges n T' -> acyclic T' -> total (label_info info y) T' <= total (label_info info y) T)).
Proof.
  intros Hy HM. set (I := label_info info y) in *. unfold chow_liu_tree. rewrite (information_ok info n y Hy). cbn [bind]. fold I.
  set (M := fun a b => - get2 (tab2 n n I) a b) in *. set (T := mst n M) in *.
  assert (EM : forall a b, (a < n)%nat -> (b < n)%nat -> M a b = - I a b) by (intros a b Ha Hb; unfold M; rewrite get2_tab2 by assumption; reflexivity).
  destruct HM as [HS Hmin]. pose proof HS as (H1 & H2 & H3). pose proof (spanning_edges n M T HS) as HG.
  exists (map sort_edge T). split; [reflexivity|]. split; [apply sort_edges_ok; assumption|]. split; [apply acyclic_sort, H2|]. split.
  - intros a b Ha Hb N. apply connected_sort, H3; try assumption. rewrite EM by assumption. apply opp_nonzero, N.
  - intro Sym. split.
    + apply Forall_forall. intros e J. apply in_map_iff in J. destruct J as ([a b] & <- & J).
      pose proof (proj1 (Forall_forall _ _) H1 (a, b) J) as (Ha & Hb & N). cbn [fst snd] in Ha, Hb, N. rewrite EM in N by assumption. apply (proj1 (opp_nonzero _)) in N.
      unfold sort_edge. cbn [fst snd]. destruct (Nat.le_ge_cases a b) as [L|L].
      * rewrite Nat.min_l, Nat.max_r by exact L. exact N.
      * rewrite Nat.min_r, Nat.max_l by exact L. rewrite Sym. exact N.
    + intros Pos T' G' A'. rewrite total_sort by exact Sym. set (T0 := filter (fun e => negb (Qceqb (I (fst e) (snd e)) 0)) T').
      assert (G0 : graph_edges n T0) by (apply Forall_forall; intros e J; apply filter_In in J; exact (proj1 (Forall_forall _ _) G' e (proj1 J))).
      assert (N0 : Forall (fun e => (fst e < n)%nat /\ (snd e < n)%nat /\ M (fst e) (snd e) <> 0) T0).
      { apply Forall_forall. intros e J. pose proof (proj1 (Forall_forall _ _) G0 e J) as [Ha Hb]. split; [exact Ha|]. split; [exact Hb|].
        rewrite EM by assumption. apply opp_nonzero. apply filter_In in J. destruct J as [_ J]. destruct (Qceqb_spec (I (fst e) (snd e)) 0); [discriminate J|assumption]. }
      destruct (extend_forest n M T0 N0 (acyclic_filter _ T' A')) as (T1 & HS1 & N1).
      specialize (Hmin _ HS1). rewrite total_app in Hmin.
      assert (G1 : graph_edges n T1) by (revert N1; apply Forall_impl; tauto).
      rewrite !(total_ext n M (fun a b => - I a b)), !total_opp in Hmin by assumption.
      pose proof (total_nonneg n I T1 G1 Pos) as P1. rewrite <- (total_filter I T'). fold T0. fold T in Hmin. clear - Hmin P1. clearbody T T0. qclra.
Qed.

(** ** number of edges *)
Definition classes (E : list (nat * nat)) (n : nat) : list nat := nodup Nat.eq_dec (map (comp E) (seq 0 n)).
Lemma nodup_merge (c c' : nat) (l : list nat) : In c l -> In c' l -> c <> c' ->
  S (length (nodup Nat.eq_dec (map (fun v => if (v =? c')%nat then c else v) l))) = length (nodup Nat.eq_dec l).
Proof.
  intros Hc Hc' N. set (f := fun v => if (v =? c')%nat then c else v).
  assert (P : Permutation (nodup Nat.eq_dec l) (c' :: nodup Nat.eq_dec (map f l))).
  { apply NoDup_Permutation; [apply NoDup_nodup| |].
    - constructor; [|apply NoDup_nodup]. rewrite nodup_In, in_map_iff. intros (v & E & _). unfold f in E. destruct (Nat.eqb_spec v c'); congruence.
    - intro v. rewrite nodup_In. cbn [In]. rewrite nodup_In, in_map_iff. split.
      + intro I. destruct (Nat.eq_dec v c') as [->|D]; [now left|]. right. exists v. split; [|exact I]. unfold f. destruct (Nat.eqb_spec v c'); congruence.
      + intros [<-|(u & E & I)]; [exact Hc'|]. unfold f in E. destruct (Nat.eqb_spec u c'); subst; assumption. }
  rewrite (Permutation_length P). reflexivity.
Qed.
Lemma classes_count n E : graph_edges n E -> acyclic E -> (length E + length (classes E n) = n)%nat.
Proof.
  intro H. induction H as [|[a b] E [Ha Hb] H IH]; intro A.
  - unfold classes. cbn [comp length]. rewrite map_id. rewrite nodup_fixed_point by apply seq_NoDup. rewrite seq_length. reflexivity.
  - cbn [fst snd] in *. apply acyclic_cons_iff in A. destruct A as [A NC]. specialize (IH A). cbn [length].
    unfold classes in *. cbn [comp].
    replace (map (fun i => if (comp E i =? comp E b)%nat then comp E a else comp E i) (seq 0 n))
      with (map (fun v => if (v =? comp E b)%nat then comp E a else v) (map (comp E) (seq 0 n))) by (rewrite map_map; reflexivity).
    pose proof (nodup_merge (comp E a) (comp E b) (map (comp E) (seq 0 n))) as K.
    rewrite <- K in IH; [lia| | |].
    + apply in_map, in_seq. lia.
    + apply in_map, in_seq. lia.
    + intro Q. apply NC, connected_comp, Q.
Qed.
Lemma tree_count n E : graph_edges n E -> acyclic E -> (forall a b, (a < n)%nat -> (b < n)%nat -> connected E a b) -> length E = (n - 1)%nat.
Proof.
  intros H A C. pose proof (classes_count n E H A) as K. destruct n as [|n]; [lia|].
  assert (L : length (classes E (S n)) = 1%nat); [|lia]. unfold classes.
  assert (P : Permutation (nodup Nat.eq_dec (map (comp E) (seq 0 (S n)))) [comp E O]).
  { apply NoDup_Permutation; [apply NoDup_nodup|constructor; [intros []|constructor]|]. intro v. rewrite nodup_In, in_map_iff. cbn [In]. split.
    - intros (i & <- & I). left. apply connected_comp, C; apply in_seq in I; lia.
    - intros [<-|[]]. exists O. split; [reflexivity|apply in_seq; lia]. }
  rewrite (Permutation_length P). reflexivity.
Qed.

(** ** Max-product on a forest *)
Lemma forest_is_chain n E : graph_edges n E -> acyclic E -> E <> [] -> is_chain E n = true -> E = chain_edges n.
Proof.
  intros G A NE H. destruct (Nat.eq_dec (length E) (n - 1)) as [L|L]; [exact (is_chain_length E n L H)|]. exfalso.
  unfold is_chain, all_eq_arange in H. rewrite !map_length in H. destruct (Nat.eqb_spec (length E) (n - 1)); [contradiction|].
  destruct (Nat.eqb_spec (n - 1) 1) as [Q|Q].
  - apply andb_prop in H. destruct H as [H1 H2]. rewrite forallb_forall in H1, H2.
    destruct E as [|[a b] [|[c d] E]]; [contradiction|cbn in L; lia|].
    pose proof (H1 a (or_introl eq_refl)) as Ea. pose proof (H1 c (or_intror (or_introl eq_refl))) as Ec.
    pose proof (H2 b (or_introl eq_refl)) as Eb. pose proof (H2 d (or_intror (or_introl eq_refl))) as Ed.
    apply Nat.eqb_eq in Ea, Eb, Ec, Ed. subst. apply acyclic_NoDup in A. inversion A as [|? ? NI _]. apply NI. now left.
  - destruct (Nat.eqb_spec (length E) 1) as [L1|L1]; [|discriminate H]. destruct E as [|[a b] [|? E]]; try discriminate L1.
    apply andb_prop in H. destruct H as [H1 H2]. cbn [map fst snd nth] in *.
    inversion G as [|? ? [Ga Gb] _]. cbn [fst snd] in *. destruct (Nat.eq_dec n 1) as [->|N1].
    + assert (a = O) by lia. assert (b = O) by lia. subst. apply (acyclic_loop [(0, 0)%nat] O A). now left.
    + rewrite forallb_forall in H1. assert (E0 : (a =? 0)%nat = true) by (apply H1, in_seq; lia). assert (E1 : (a =? 1)%nat = true) by (apply H1, in_seq; lia).
      apply Nat.eqb_eq in E0, E1. lia.
Qed.
Lemma forest_max_product n k U p E max_iter damping tol : mat_ok U -> mrows U = n -> mcols U = k -> (0 < k)%nat -> pw_shape p (length E) k ->
  graph_edges n E -> acyclic E -> E <> [] ->
  exists y, inference_max_product U p E max_iter damping tol = Ok y /\ max_marginal n k E (mget U) (pw_table p) y.
Proof.
  intros OU R C K P G A NE. destruct (is_chain E n) eqn:Q.
  - pose proof (forest_is_chain n E G A NE Q) as EC.
    assert (Hn : (0 < n)%nat) by (destruct n; [destruct E as [|e E]; [contradiction|inversion G as [|? ? [X _] _]; lia]|lia]).
    assert (PS : pw_shape p (n - 1) k) by (rewrite EC in P; unfold chain_edges in P; rewrite map_length, seq_length in P; exact P).
    destruct (max_product_chain n k U p max_iter damping tol OU R C Hn K PS) as (y & Ey & Hm). rewrite <- EC in Ey, Hm.
    exists y. split; [exact Ey|]. split; [exact (proj1 Hm)|]. intros v Hv. exists y. auto.
  - destruct (max_product_forest n k U p E max_iter damping tol R C K P G A NE Q) as (y & Ey & Hl & Hm). exists y. split; [exact Ey|]. split; assumption.
Qed.
Lemma marginal_ext n k E U U' P P' y : graph_edges n E ->
  (forall i s, (i < n)%nat -> (s < k)%nat -> U i s = U' i s) ->
  (forall e s t, (e < length E)%nat -> (s < k)%nat -> (t < k)%nat -> P e s t = P' e s t) ->
  max_marginal n k E U P y -> max_marginal n k E U' P' y.
Proof.
  intros G HU HP [Hl Hm]. split; [exact Hl|].
  assert (SE : forall z, labelling n k z -> score n E U P (lab z) = score n E U' P' (lab z)).
  { intros z Hz. apply score_ext; [exact G| |].
    - intros i Hi. apply HU; [exact Hi|]. exact (labelling_lt n k z i Hz Hi).
    - intros e a b He Ha Hb. apply HP; [exact He| |]; eapply labelling_lt; eauto. }
  intros v Hv. destruct (Hm v Hv) as (z & [Hz Hz'] & E'). exists z. split; [|exact E']. split; [exact Hz|].
  intros z' L'. rewrite <- !SE by assumption. exact (Hz' z' L').
Qed.
Lemma marginal_unique n k E U P y : max_marginal n k E U P y -> (forall z z', maximiser n k E U P z -> maximiser n k E U P z' -> z = z') ->
  (0 < n)%nat -> maximiser n k E U P y.
Proof.
  intros [Hl Hm] Un Hn. destruct (Hm O Hn) as (z & Hz & _). assert (y = z); [|subst; exact Hz].
  apply nth_ext with O O; [destruct Hl as [-> _]; destruct Hz as [[-> _] _]; reflexivity|].
  intros i Hi. rewrite (proj1 Hl) in Hi. destruct (Hm i Hi) as (z' & Hz' & E'). rewrite (Un z z' Hz Hz'). symmetry. exact E'.
Qed.
Lemma ml_forest m x w max_iter damping tol : graph_edges (ml_labels m) (ml_edges m) -> acyclic (ml_edges m) -> ml_edges m <> [] ->
  length x = ml_features m -> length w = ml_size m ->
  exists y, ml_inference (fun U p e => inference_max_product U p e max_iter damping tol) m x w = Ok y /\
    max_marginal (ml_labels m) 2 (ml_edges m) (label_unary (ml_features m) w x) (label_pair (ml_labels m) (ml_features m) w) y.
Proof.
  intros G A NE Hx Hw. destruct (ml_unary_ok m x w Hw Hx) as (U & EU & OU & RU & CU & GU). destruct (ml_pairwise_ok m w Hw) as (d & EP & LP & GP).
  destruct (forest_max_product (ml_labels m) 2 U (Pw3 (length (ml_edges m)) 2 2 d) (ml_edges m) max_iter damping tol) as (y & Ey & Hy); auto; [repeat split; exact LP|].
  exists y. split; [unfold ml_inference; rewrite check_size_w_ok by exact Hw; cbn [bind]; rewrite EU; cbn [bind]; rewrite EP; exact Ey|].
  revert Hy. apply marginal_ext; assumption.
Qed.
Lemma ml_no_edges m x w max_iter damping tol : ml_edges m = [] -> (2 <= ml_labels m)%nat -> length x = ml_features m -> length w = ml_size m ->
  exists e, ml_inference (fun U p e => inference_max_product U p e max_iter damping tol) m x w = Err e.
Proof.
  intros NE H2 Hx Hw. destruct (ml_unary_ok m x w Hw Hx) as (U & EU & OU & RU & CU & GU). destruct (ml_pairwise_ok m w Hw) as (d & EP & LP & GP).
  unfold ml_inference. rewrite check_size_w_ok by exact Hw. cbn [bind]. rewrite EU. cbn [bind]. rewrite EP, NE. cbn [bind length].
  destruct (max_product_no_edges (ml_labels m) 2 U (Pw3 0 2 2 d) max_iter damping tol OU RU CU ltac:(lia)) as (_ & K2 & K3); [rewrite NE in LP; repeat split; exact LP|].
  destruct (Nat.eq_dec (ml_labels m) 2) as [Q|Q]; eexists; [apply K2; now right|apply K3; lia].
Qed.

(** ** all pairs *)
Lemma combinations_in n a b : In (a, b) (combinations2 n) <-> (a < b)%nat /\ (b < n)%nat.
Proof.
  unfold combinations2. rewrite in_flat_map. split.
  - intros (i & Hi & H). apply in_map_iff in H. destruct H as (j & Q & Hj). injection Q as <- <-. apply in_seq in Hi, Hj. lia.
  - intros [H1 H2]. exists a. split; [apply in_seq; lia|]. apply in_map_iff. exists b. split; [reflexivity|apply in_seq; lia].
Qed.
Lemma NoDup_flat_pairs (f : nat -> list nat) l : NoDup l -> (forall i, NoDup (f i)) -> NoDup (flat_map (fun i => map (fun j => (i, j)) (f i)) l).
Proof.
  intros H F. induction H as [|i l NI H IH]; [constructor|]. cbn [flat_map]. 
  assert (D : forall e, In e (map (fun j => (i, j)) (f i)) -> ~ In e (flat_map (fun i => map (fun j => (i, j)) (f i)) l)).
  { intros e I1 I2. apply in_map_iff in I1. destruct I1 as (j & <- & _). apply in_flat_map in I2. destruct I2 as (i' & Hi' & J).
    apply in_map_iff in J. destruct J as (j' & Q & _). injection Q as -> _. contradiction. }
  assert (N : NoDup (map (fun j => (i, j)) (f i))).
  { specialize (F i). revert F. clear. intro F. induction F as [|j l NJ _ IH]; [constructor|]. cbn [map]. constructor; [|exact IH].
    intro I. apply in_map_iff in I. destruct I as (j' & Q & I). injection Q as ->. contradiction. }
  revert D N. generalize (map (fun j => (i, j)) (f i)). intros l1 D N. induction N as [|e l1 NE N IH']; [exact IH|]. cbn [app]. constructor.
  - intro I. apply in_app_or in I. destruct I as [I|I]; [contradiction|]. exact (D e (or_introl eq_refl) I).
  - apply IH'. intros e' I. apply D. now right.
Qed.
Lemma combinations_nodup n : NoDup (combinations2 n).
Proof. apply NoDup_flat_pairs; [apply seq_NoDup|intro; apply seq_NoDup]. Qed.
Lemma full_ok n : (2 <= n)%nat -> exists l, full_edges n = Ok l /\ NoDup l /\ forall a b, In (a, b) l <-> (a < b)%nat /\ (b < n)%nat.
Proof.
  intro H. exists (combinations2 n). split; [|split; [apply combinations_nodup|apply combinations_in]].
  unfold full_edges. destruct (combinations2 n) eqn:Q; [|reflexivity].
  assert (I : In (0, 1)%nat (combinations2 n)) by (apply combinations_in; lia). rewrite Q in I. destruct I.
Qed.
Lemma full_small n : (n < 2)%nat -> full_edges n = Err ValueError.
Proof. intro H. destruct n as [|[|n]]; [reflexivity|reflexivity|lia]. Qed.
Lemma full_cyclic n l : (3 <= n)%nat -> full_edges n = Ok l -> ~ acyclic l.
Proof.
  intros H E A. destruct (full_ok n ltac:(lia)) as (l' & E' & _ & K). assert (l' = l) by congruence. subst l'.
  assert (I : In (0, 2)%nat l) by (apply K; lia). apply in_split in I. destruct I as (l1 & l2 & ->).
  apply (acyclic_perm _ ((0, 2)%nat :: l1 ++ l2)), acyclic_cons_iff, proj2 in A; [|symmetry; apply Permutation_middle].
  assert (J : forall a b, In (a, b) (l1 ++ (0, 2)%nat :: l2) -> (a, b) <> (0, 2)%nat -> In (a, b) (l1 ++ l2)).
  { intros a b I N. apply in_app_or in I. apply in_or_app. destruct I as [I|[I|I]]; [now left|congruence|now right]. }
  apply A. apply rst_trans with 1%nat; apply rst_step, J; try discriminate; apply K; lia.
Qed.

(** ** random trees *)
Lemma random_trees_ok mst n k F weights draws : (0 < k)%nat -> (0 < n)%nat -> length weights = g_size (GraphCRF k F false) ->
  Forall (fun d => mat_ok (fst d) /\ mrows (fst d) = n /\ mcols (fst d) = F /\ minimum_spanning mst n (snd d) /\
                   forall a b, (a < n)%nat -> (b < n)%nat -> a <> b -> snd d a b <> 0) draws ->
  exists l, make_random_trees mst n k F weights draws = Ok l /\
    Forall2 (fun d p => gx_features (fst p) = fst d /\ graph_edges n (gx_edges (fst p)) /\ acyclic (gx_edges (fst p)) /\
      (forall a b, (a < n)%nat -> (b < n)%nat -> connected (gx_edges (fst p)) a b) /\ length (gx_edges (fst p)) = (n - 1)%nat /\
      (forall T, graph_edges n T -> acyclic T -> (forall a b, (a < n)%nat -> (b < n)%nat -> connected T a b) ->
                 total (snd d) (gx_edges (fst p)) <= total (snd d) T) /\
      max_marginal n k (gx_edges (fst p)) (fun i => unary_score F weights (mget (fst d) i)) (fun _ => pair_score k F false weights) (snd p)) draws l.
Proof.
  intros Hk Hn Hw H. unfold make_random_trees. induction H as [|[X M] draws (OX & RX & CX & HM & NZ) _ (l & El & Hl)].
  - exists []. split; [reflexivity|constructor].
  - cbn [fst snd] in *. destruct HM as [HS Hmin]. pose proof HS as (H1 & H2 & H3). pose proof (spanning_edges n M _ HS) as HG. set (T := mst n M) in *.
    assert (HC : forall a b, (a < n)%nat -> (b < n)%nat -> connected T a b).
    { intros a b Ha Hb. destruct (Nat.eq_dec a b) as [->|D]; [apply rst_refl|]. apply H3; try assumption. apply NZ; assumption. }
    set (x := random_tree mst n X M). change (mst n M) with T in x.
    assert (VX : valid_x (GraphCRF k F false) x) by (split; [exact OX|exact CX|cbn; rewrite RX; exact HG]).
    destruct (g_potentials_ok (GraphCRF k F false) x weights VX Hw) as (U & P & E & OU & RU & CU & OP & RP & CP & GU & GP).
    cbn [g_states g_features g_directed gx_features x random_tree] in *. rewrite RX in RU, GU.
    assert (K : exists y, inference_max_product U (Pw2 P) T 30 (Q2Qc (1 # 2)) default_tol = Ok y /\ max_marginal n k T (mget U) (pw_table (Pw2 P)) y).
    { destruct (list_eq_dec (fun u v : nat * nat => ltac:(decide equality; apply Nat.eq_dec)) T []) as [ET|NE].
      - pose proof (tree_count n T HG H2 HC) as L. rewrite ET in L. cbn [length] in L. assert (N1 : n = 1%nat) by lia.
        destruct (max_product_no_edges n k U (Pw2 P) 30 (Q2Qc (1 # 2)) default_tol OU RU CU Hk) as (K1 & _); [split; assumption|].
        destruct (K1 N1) as (y & Ey & Hm). rewrite ET. exists y. split; [exact Ey|]. split; [exact (proj1 Hm)|]. intros v Hv. exists y. auto.
      - apply forest_max_product; auto. split; assumption. }
    destruct K as (y & Ey & Hy). exists ((x, y) :: l). split.
    + cbn [mapM fst snd]. rewrite El. change (random_tree mst n X M) with x. unfold g_inference. rewrite E. cbn [bind fst snd]. change (gx_edges x) with T. rewrite Ey. reflexivity.
    + constructor; [|exact Hl]. cbn [fst snd]. split; [reflexivity|]. change (gx_edges x) with T. split; [exact HG|]. split; [exact H2|]. split; [exact HC|].
      split; [exact (tree_count n T HG H2 HC)|]. split.
      * intros T' G' A' C'. apply Hmin. split; [|split; [exact A'|intros; apply C'; assumption]]. apply Forall_forall. intros [a b] I.
        pose proof (proj1 (Forall_forall _ _) G' (a, b) I) as [Ha Hb]. cbn [fst snd] in *. split; [exact Ha|]. split; [exact Hb|]. apply NZ; try assumption.
        intros ->. exact (acyclic_loop T' b A' I).
      * revert Hy. apply marginal_ext; [exact HG|exact GU|]. intros e s t _ Hs Ht. exact (GP s t Hs Ht).
Qed.

Lemma chow_liu_all info mst n y : label_rows n y -> minimum_spanning mst n (fun a b => - get2 (tab2 n n (label_info info y)) a b) ->
  (forall a b, (a < n)%nat -> (b < n)%nat -> a <> b -> label_info info y a b <> 0) ->
  exists T, chow_liu_tree info mst n y = Ok T /\ length T = (n - 1)%nat /\ forall a b, (a < n)%nat -> (b < n)%nat -> connected T a b.
Proof.
  intros Hy HM NZ. destruct (chow_liu_ok info mst n y Hy HM) as (T & E & HT & A & C & _). exists T. split; [exact E|].
  assert (HC : forall a b, (a < n)%nat -> (b < n)%nat -> connected T a b).
  { intros a b Ha Hb. destruct (Nat.eq_dec a b) as [->|D]; [apply rst_refl|]. apply C; auto. }
  split; [|exact HC]. apply tree_count; [|exact A|exact HC]. revert HT. apply Forall_impl. intros e []. lia.
Qed.
Lemma chow_liu_none info mst n y : label_rows n y -> minimum_spanning mst n (fun a b => - get2 (tab2 n n (label_info info y)) a b) ->
  (forall a b, (a < n)%nat -> (b < n)%nat -> a <> b -> label_info info y a b = 0) -> chow_liu_tree info mst n y = Ok [].
Proof.
  intros Hy HM Z. unfold chow_liu_tree. rewrite (information_ok info n y Hy). cbn [bind]. destruct HM as [(H1 & H2 & _) _].
  destruct (mst n _) as [|[a b] T] eqn:Q; [reflexivity|]. exfalso.
  apply Forall_inv in H1. cbn [fst snd] in H1. destruct H1 as (Ha & Hb & N).
  apply (proj1 (opp_nonzero _)) in N. rewrite get2_tab2 in N by assumption. apply N, Z; try assumption. intros ->. apply (acyclic_loop _ b H2). now left.
Qed.
Lemma chow_liu_model info mst n F y x w T max_iter damping tol : label_rows n y ->
  minimum_spanning mst n (fun a b => - get2 (tab2 n n (label_info info y)) a b) -> chow_liu_tree info mst n y = Ok T ->
  length x = F -> length w = ml_size (ML n F T) -> (2 <= n)%nat ->
  (T <> [] -> exists z, ml_inference (fun U p e => inference_max_product U p e max_iter damping tol) (ML n F T) x w = Ok z /\
     max_marginal n 2 T (label_unary F w x) (label_pair n F w) z) /\
  (T = [] -> exists e, ml_inference (fun U p e => inference_max_product U p e max_iter damping tol) (ML n F T) x w = Err e).
Proof.
  intros Hy HM E Hx Hw Hn. destruct (chow_liu_ok info mst n y Hy HM) as (T' & E' & HT & A & _). assert (T' = T) by congruence. subst T'. split.
  - intro NE. apply (ml_forest (ML n F T) x w); try assumption. cbn. revert HT. apply Forall_impl. intros e []. lia.
  - intro NE. apply (ml_no_edges (ML n F T) x w); assumption.
Qed.
