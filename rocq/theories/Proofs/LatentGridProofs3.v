(** init_latent of the latent grids; neighbour features of directional grids; concrete cases. *)
From Coq Require Import ZArith.
From Verif Require Import Model.LatentGrid Model.ChainCRF Proofs.MaxProdProofs Proofs.ChainProofs Model.MaxProd Model.Instances Spec.GraphSpec Spec.SolverSpec Spec.EdgeSpec
  Proofs.Arrays Proofs.EnergyProofs Proofs.GraphCRFProofs Proofs.LossProofs Proofs.CRFProofs Proofs.GridProofs Proofs.GridProofs2
  Proofs.LatentProofs Proofs.LatentInit Proofs.LatentProofs2 Proofs.LatentProofs3 Proofs.LatentProofs4 Proofs.LatentGridProofs Proofs.LatentGridProofs2 Proofs.NSlackProofs5
  Spec.LatentSpec Spec.LatentGridSpec.

Lemma zip3 {A B C} (P : B -> list nat -> Prop) : forall (S : list (C * B)) (fs : list A) (H : list (list nat)), length fs = length S ->
  Forall2 (fun s h => P (snd s) h) (combine fs (map snd S)) H -> Forall2 (fun p h => P (snd p) h) S H.
Proof.
  induction S as [|p S IH]; intros [|f fs] H L F; try discriminate L; cbn [map combine] in F; inversion F; subst; constructor; [assumption|].
  apply (IH fs); [cbn in L; lia|assumption].
Qed.
Lemma ltg_init_explains cluster t arrays S H : laid_out (tg_lg t) -> clusters cluster -> ltg_init_latent cluster t arrays S = Ok H ->
  Forall2 (fun p h => explains (lg_counts (tg_lg t)) h (snd p)) S H.
Proof.
  intros HG HC E. unfold ltg_init_latent in E. apply bind_ok in E. destruct E as [es [E1 E]]. apply bind_ok in E. destruct E as [_ [_ E]].
  apply bind_ok in E. destruct E as [fs [E2 E]]. apply mapM_length in E1, E2.
  apply (kmeans_consistent cluster _ _ _ _ _ HC (proj1 HG)) in E. remember (lg_counts (tg_lg t)) as cs. clear -E E1 E2.
  revert fs es H E1 E2 E. induction S as [|p S IH]; intros [|f fs] [|e es] H E1 E2 E; try discriminate E1; try discriminate E2; cbn [map combine fst snd] in E; inversion E; subst; constructor; [assumption|].
  apply (IH fs es); [cbn in E1; lia|cbn in E2; lia|assumption].
Qed.
Lemma ldg_init_explains cluster d arrays S H : laid_out (dg_lg d) -> clusters cluster -> ldg_init_latent cluster d arrays S = Ok H ->
  Forall2 (fun p h => explains (lg_counts (dg_lg d)) h (snd p)) S H.
Proof.
  intros HG HC E. unfold ldg_init_latent in E. apply bind_ok in E. destruct E as [es [E1 E]]. apply bind_ok in E. destruct E as [_ [_ E]].
  apply bind_ok in E. destruct E as [fs [E2 E]]. apply mapM_length in E1, E2.
  apply (kmeans_consistent cluster _ _ _ _ _ HC (proj1 HG)) in E. remember (lg_counts (dg_lg d)) as cs. clear -E E1 E2.
  revert fs es H E1 E2 E. induction S as [|p S IH]; intros [|f fs] [|e es] H E1 E2 E; try discriminate E1; try discriminate E2; cbn [map combine fst snd] in E; inversion E; subst; constructor; [assumption|].
  apply (IH fs es); [cbn in E1; lia|cbn in E2; lia|assumption].
Qed.
Lemma init_lists cluster t d S : (tg_nb t = 4 \/ tg_nb t = 8)%nat -> (dg_nb d = 4 \/ dg_nb d = 8)%nat ->
  ltg_init_latent cluster t false S = Err AttributeError /\ ldg_init_latent cluster d false S = Err AttributeError.
Proof.
  intros HT HD. unfold ltg_init_latent, ldg_init_latent.
  assert (A : exists es, mapM (fun p : grid_x * list nat => make_grid_edges (gr_h (fst p)) (gr_w (fst p)) (tg_nb t)) S = Ok es).
  { apply mapM_total. intros p _. unfold make_grid_edges. rewrite grid_lists. destruct HT as [->| ->]; eexists; reflexivity. }
  assert (B : exists es, mapM (fun p : grid_x * list nat => make_grid_edge_lists (gr_h (fst p)) (gr_w (fst p)) (dg_nb d)) S = Ok es).
  { apply mapM_total. intros p _. rewrite grid_lists. destruct HD as [->| ->]; eexists; reflexivity. }
  destruct A as [es ->], B as [es' ->]. split; reflexivity.
Qed.

(** ** success on equally shaped samples *)
Lemma stack_ok S h w c : S <> [] -> Forall (fun p : grid_x * list nat => gr_h (fst p) = h /\ gr_w (fst p) = w /\ gr_c (fst p) = c /\ length (snd p) = (h * w)%nat) S ->
  stack_samples true S = Ok tt.
Proof.
  intros HN HS. unfold stack_samples. cbn [ensure bind]. destruct S as [|s S]; [contradiction|]. apply Forall_cons_iff in HS. destruct HS as [[A1 [A2 [A3 A4]]] HS].
  replace (forallb _ S) with true; [reflexivity|]. symmetry. apply forallb_forall. intros p Hp. rewrite Forall_forall in HS. destruct (HS p Hp) as [B1 [B2 [B3 B4]]].
  rewrite A1, A2, A3, A4, B1, B2, B3, B4, !Nat.eqb_refl. reflexivity.
Qed.
Lemma lists_ok h w nb : (nb = 4 \/ nb = 8)%nat -> exists l, make_grid_edge_lists h w nb = Ok l /\ l <> [] /\ length l = (nb / 2)%nat /\ Forall (graph_edges (h * w)) l.
Proof.
  intros HB. rewrite grid_lists. assert (E : exists l, make_grid_edge_lists h w nb = Ok l) by (rewrite grid_lists; destruct HB as [->| ->]; eexists; reflexivity).
  destruct E as [l El]. assert (G : graph_edges (h * w) (concat l)).
  { apply (grid_edges_sound h w nb). unfold make_grid_edges. rewrite El. reflexivity. }
  exists l. rewrite grid_lists in El. split; [exact El|].
  assert (Q : l <> [] /\ length l = (nb / 2)%nat) by (destruct HB as [->| ->]; injection El as <-; split; [discriminate|reflexivity|discriminate|reflexivity]).
  split; [apply Q|]. split; [apply Q|]. apply Forall_forall. intros e He. apply Forall_forall. intros p Hp. unfold graph_edges in G. rewrite Forall_forall in G.
  apply G. apply in_concat. exists e. split; assumption.
Qed.
Lemma init_parts cluster nl counts sym F S h w c nb (pick : list (list (nat * nat)) -> list (list (nat * nat))) width :
  fits_enough cluster -> length counts = nl -> (0 < F)%nat -> (nb = 4 \/ nb = 8)%nat -> S <> [] ->
  Forall (fun p : grid_x * list nat => gr_h (fst p) = h /\ gr_w (fst p) = w /\ gr_c (fst p) = c /\ length (gr_data (fst p)) = (h * w * F)%nat /\ labelling (h * w) nl (snd p)) S ->
  (forall l, make_grid_edge_lists h w nb = Ok l -> pick l <> [] /\ length (pick l) = width /\ Forall (graph_edges (h * w)) (pick l)) ->
  exists es fs, mapM (fun p : grid_x * list nat => make_grid_edge_lists (gr_h (fst p)) (gr_w (fst p)) nb) S = Ok es /\ stack_samples true S = Ok tt /\
    mapM (fun p : grid_x * list nat => grid_features F (fst p)) S = Ok fs /\
    ((exists H, kmeans_init cluster nl counts sym (combine (combine fs (map snd S)) (map pick es)) = Ok H) <-> enough_nodes counts (map snd S)).
Proof.
  intros HC HL HF HB HN HS HP. destruct (lists_ok h w nb HB) as [l [El _]].
  assert (E1 : mapM (fun p : grid_x * list nat => make_grid_edge_lists (gr_h (fst p)) (gr_w (fst p)) nb) S = Ok (map (fun _ => l) S)).
  { apply mapM_ok. intros p Hp. rewrite Forall_forall in HS. destruct (HS p Hp) as [-> [-> _]]. exact El. }
  assert (E2 : mapM (fun p : grid_x * list nat => grid_features F (fst p)) S = Ok (map (fun p => mtab (h * w) F (fun i f => get1 (gr_data (fst p)) (i * F + f))) S)).
  { apply mapM_ok. intros p Hp. rewrite Forall_forall in HS. destruct (HS p Hp) as [Q1 [Q2 [_ [Q3 _]]]]. rewrite grid_features_ok; [rewrite Q1, Q2; reflexivity|exact HF|rewrite Q1, Q2; exact Q3]. }
  exists (map (fun _ => l) S). eexists. split; [exact E1|]. split; [|split; [exact E2|]].
  - apply (stack_ok S h w c HN). apply Forall_impl with (2 := HS). intros p [Q1 [Q2 [Q3 [_ [Q4 _]]]]]. auto.
  - rewrite (kmeans_iff cluster nl counts sym _ (F + (if sym then 1 else 2) * nl * width)%nat HC HL).
    + match goal with |- enough_nodes _ ?a <-> enough_nodes _ ?b => replace a with b; [reflexivity|] end. clear. induction S as [|p S IH]; [reflexivity|]. cbn [map combine fst snd]. f_equal. exact IH.
    + destruct S; [contradiction|discriminate].
    + destruct (HP l El) as [P1 [P2 P3]]. clear -HS P1 P2 P3. induction S as [|p S IH]; [constructor|]. apply Forall_cons_iff in HS. destruct HS as [[_ [_ [_ [_ Hy]]]] HS]. cbn [map combine]. constructor; [|apply IH; exact HS].
      cbn [mrows mcols mtab]. split; [apply Hy|]. split; [apply Hy|]. split; [exact P1|]. split; [rewrite P2; reflexivity|exact P3].
Qed.
Lemma ltg_init_iff cluster t S h w c : fits_enough cluster -> laid_out (tg_lg t) -> (0 < lg_features (tg_lg t))%nat -> (tg_nb t = 4 \/ tg_nb t = 8)%nat -> S <> [] ->
  Forall (fun p : grid_x * list nat => gr_h (fst p) = h /\ gr_w (fst p) = w /\ gr_c (fst p) = c /\ length (gr_data (fst p)) = (h * w * lg_features (tg_lg t))%nat /\ labelling (h * w) (lg_labels (tg_lg t)) (snd p)) S ->
  (exists H, ltg_init_latent cluster t true S = Ok H) <-> enough_nodes (lg_counts (tg_lg t)) (map snd S).
Proof.
  intros HC HG HF HB HN HS.
  destruct (init_parts cluster (lg_labels (tg_lg t)) (lg_counts (tg_lg t)) true (lg_features (tg_lg t)) S h w c (tg_nb t) (fun l => [concat l]) 1 HC (proj1 HG) HF HB HN HS) as [es [fs [E1 [E2 [E3 E4]]]]].
  - intros l El. split; [discriminate|]. split; [reflexivity|]. constructor; [|constructor]. apply (grid_edges_sound h w (tg_nb t)). unfold make_grid_edges. rewrite El. reflexivity.
  - rewrite <- E4. unfold ltg_init_latent.
    assert (E1' : mapM (fun p : grid_x * list nat => make_grid_edges (gr_h (fst p)) (gr_w (fst p)) (tg_nb t)) S = Ok (map (@concat (nat * nat)) es)).
    { clear -E1. revert es E1. induction S as [|p S IH]; intros es E; cbn [mapM] in *; [injection E as <-; reflexivity|].
      apply bind_ok in E. destruct E as [l [E1 E]]. apply bind_ok in E. destruct E as [ls [E2 E]]. injection E as <-. unfold make_grid_edges at 1. rewrite E1. cbn [bind]. rewrite (IH _ E2). reflexivity. }
    rewrite E1'. cbn [bind]. rewrite E2. cbn [bind]. rewrite E3. cbn [bind].
    match goal with |- (exists H, kmeans_init _ _ _ _ ?a = _) <-> (exists H, kmeans_init _ _ _ _ ?b = _) => replace a with b; [reflexivity|] end. clear.
    generalize (combine fs (map snd S)). intros a. revert es. induction a as [|q a IH]; intros [|e es]; try reflexivity. cbn [map combine]. rewrite IH. destruct q; reflexivity.
Qed.
Lemma ldg_init_iff cluster d S h w c : fits_enough cluster -> laid_out (dg_lg d) -> (0 < lg_features (dg_lg d))%nat -> (dg_nb d = 4 \/ dg_nb d = 8)%nat -> S <> [] ->
  Forall (fun p : grid_x * list nat => gr_h (fst p) = h /\ gr_w (fst p) = w /\ gr_c (fst p) = c /\ length (gr_data (fst p)) = (h * w * lg_features (dg_lg d))%nat /\ labelling (h * w) (lg_labels (dg_lg d)) (snd p)) S ->
  (exists H, ldg_init_latent cluster d true S = Ok H) <-> enough_nodes (lg_counts (dg_lg d)) (map snd S).
Proof.
  intros HC HG HF HB HN HS.
  destruct (init_parts cluster (lg_labels (dg_lg d)) (lg_counts (dg_lg d)) false (lg_features (dg_lg d)) S h w c (dg_nb d) (fun l => l) (dg_nb d / 2) HC (proj1 HG) HF HB HN HS) as [es [fs [E1 [E2 [E3 E4]]]]].
  - intros l El. destruct (lists_ok h w (dg_nb d) HB) as [l' [El' [A1 [A2 A3]]]]. assert (l' = l) by congruence. subst l'. auto.
  - rewrite <- E4. unfold ldg_init_latent. rewrite E1. cbn [bind]. rewrite E2. cbn [bind]. rewrite E3. cbn [bind]. rewrite map_id. reflexivity.
Qed.

(** ** neighbour features, one block per direction *)
Lemma leads_sum e n y i l : graph_edges n e -> sumn n (fun j => count_edges e i j * ind (l =? nth j y O)%nat) = ofN (leads_to e y i l).
Proof. intros H. apply count_sum. apply Forall_impl with (2 := H). intros p [_ Q]. exact Q. Qed.
Lemma comes_sum e n y i l : graph_edges n e -> sumn n (fun j => count_edges e j i * ind (l =? nth j y O)%nat) = ofN (comes_from e y i l).
Proof.
  intros H. unfold comes_from. rewrite <- (filter_flip e (fun a b => (a =? i) && (lab y b =? l))%nat).
  assert (F : graph_edges n (map (fun p => (snd p, fst p)) e)) by (apply Forall_map; apply Forall_impl with (2 := H); intros p [Q1 Q2]; split; assumption).
  rewrite <- (count_sum (map (fun p => (snd p, fst p)) e) n y i l) by (apply Forall_impl with (2 := F); intros p [_ Q]; exact Q).
  apply sumn_ext. intros j _. rewrite <- count_flip. reflexivity.
Qed.
Lemma lsum_flat {A} (f : A -> list Qc) l : lsum (flat_map f l) = lsum (map (fun a => lsum (f a)) l).
Proof. induction l as [|a l IH]; [reflexivity|]. cbn [flat_map map lsum]. rewrite lsum_app, IH. reflexivity. Qed.
Lemma directional_features nl x y es f i : neighbor_features nl false x y es = Ok f -> (i < mrows x)%nat ->
  nth i f [] = nth i (mdat x) [] ++
    map (fun k => ofN k / Qcmax (ofN (list_sum (map (fun e => degree e i) es))) 1)
        (flat_map (fun e => map (leads_to e y i) (seq 0 nl) ++ map (comes_from e y i) (seq 0 nl)) es).
Proof.
  intros E Hi. destruct (neighbor_length _ _ _ _ _ _ E) as [_ [HY HL]]. unfold neighbor_features in E. rewrite HL, Nat.eqb_refl in E. cbn [ensure bind] in E.
  rewrite one_hot_ok in E by exact HY. cbn [bind] in E. apply bind_ok in E. destruct E as [[] [E3 E]]. apply ensure_ok in E3.
  apply bind_ok in E. destruct E as [[] [_ E]]. injection E as <-.
  assert (HE : Forall (graph_edges (mrows x)) es).
  { apply Forall_forall. intros e He. rewrite forallb_forall in E3. specialize (E3 e He). apply Forall_forall. intros p Hp. rewrite forallb_forall in E3. specialize (E3 p Hp). apply andb_true_iff in E3.
    destruct E3 as [G1 G2]. apply Nat.ltb_lt in G1, G2. auto. }
  match goal with |- nth i (map ?q _) [] = _ => set (fn := q) end. rewrite (nth_map_lt fn _ i [] O) by (rewrite seq_length; exact Hi). rewrite seq_nth by exact Hi. unfold fn. cbn [plus]. f_equal.
  match goal with |- vscale _ (flat_map ?q ?r) = _ => set (nb := flat_map q r) end.
  assert (T : nb = map ofN (flat_map (fun e => map (leads_to e y i) (seq 0 nl) ++ map (comes_from e y i) (seq 0 nl)) es)).
  { unfold nb. clear -HE HL. induction HE as [|e es H1 H2 IH]; [reflexivity|]. cbn [flat_map app]. rewrite map_app, map_app, !map_map. rewrite <- app_assoc. f_equal; [|f_equal].
    - unfold tab1. apply map_ext_in. intros l Hl. apply in_seq in Hl. rewrite <- (leads_sum e (mrows x) y i l H1). apply sumn_ext. intros j Hj. rewrite mget_mtab by lia. reflexivity.
    - unfold tab1. apply map_ext_in. intros l Hl. apply in_seq in Hl. rewrite <- (comes_sum e (mrows x) y i l H1). apply sumn_ext. intros j Hj. rewrite mget_mtab by lia. reflexivity.
    - exact IH. }
  assert (D : lsum nb = ofN (list_sum (map (fun e => degree e i) es))).
  { rewrite T. clear -HE HL HY. induction HE as [|e es H1 H2 IH]; [reflexivity|]. cbn [flat_map map]. change (list_sum (degree e i :: ?l)) with (degree e i + list_sum l)%nat. rewrite map_app, lsum_app, IH, ofN_plus. f_equal.
    rewrite <- (joined_degree e (mrows x) y nl i H1 HL HY). rewrite map_app, !map_map, lsum_app.
    change (map (fun l => ofN (leads_to e y i l)) (seq 0 nl)) with (tab1 nl (fun l => ofN (leads_to e y i l))). change (map (fun l => ofN (comes_from e y i l)) (seq 0 nl)) with (tab1 nl (fun l => ofN (comes_from e y i l))).
    rewrite !lsum_tab1, <- sumn_plus. apply sumn_ext. intros l _. unfold joined. rewrite ofN_plus. reflexivity. }
  rewrite D, T. unfold vscale. rewrite map_map. apply map_ext. intros k. unfold Qcdiv. ring.
Qed.

(** ** the statements at the level of the constructor *)
Lemma ltg_small nl nf p nb t solve cluster x es y w B B' : ltg_setup nl nf p nb = Ok t -> (0 < nf)%nat ->
  length (gr_data x) = (gr_h x * gr_w x * nf)%nat -> make_grid_edges (gr_h x) (gr_w x) nb = Ok es ->
  exact_solver_on solve (gr_h x * gr_w x) es -> length w = g_size (lg_graph (tg_lg t)) -> (0 < gr_h x * gr_w x)%nat ->
  labelling (gr_h x * gr_w x) nl y -> Forall (fun c => (0 < c)%nat) (lg_counts (tg_lg t)) ->
  (forall i s, (i < gr_h x * gr_w x)%nat -> (s < lg_states (tg_lg t))%nat ->
     - B <= unary_score nf w (fun f => get1 (gr_data x) (i * nf + f)) s /\ unary_score nf w (fun f => get1 (gr_data x) (i * nf + f)) s <= B) ->
  (forall s u, (s < lg_states (tg_lg t))%nat -> (u < lg_states (tg_lg t))%nat ->
     - B' <= get1 w (lg_states (tg_lg t) * nf + tri_index s u) /\ get1 w (lg_states (tg_lg t) * nf + tri_index s u) <= B') ->
  ofN (gr_h x * gr_w x) * (B + B) + ofN (length es) * (B' + B') < ofN 100 ->
  latent_exact (ltg_lmodel solve cluster t) (ltg_task t) (grid_explains (lg_counts (tg_lg t))) (g_size (lg_graph (tg_lg t))) w (x, y).
Proof.
  intros ET HF HL HE HS HW HN HY HC HU HP HSM. destruct (ltg_setup_inv _ _ _ _ _ ET) as [HG [E1 [E2 E3]]]. subst nl nf nb.
  assert (HX := ltg_valid t x es HE).
  destruct (g_potentials_ok _ (pixels (lg_features (tg_lg t)) x es) w HX HW) as [U [P [EP [OU [RU [CU [OP [RP [CP [GU GP]]]]]]]]]].
  apply (ltg_latent_exact t x es HG HF HL HE solve cluster y w U P B B'); try assumption.
  - intros i s Hi Hs. rewrite GU by assumption.
    match goal with |- _ <= ?a /\ _ => replace a with (unary_score (lg_features (tg_lg t)) w (fun f => get1 (gr_data x) (i * lg_features (tg_lg t) + f)) s) end; [apply HU; assumption|].
    unfold unary_score. apply sumn_ext. intros f Hf. f_equal. symmetry. apply mget_mtab; assumption.
  - intros s u Hs Hu. rewrite GP by assumption. exact (HP s u Hs Hu).
Qed.

(** ** a 1 x 2 image, two labels with two states each *)
Definition ex24_x : grid_x := GridX 1 2 1 [1; - (1)].
Definition ex24_g : lg_crf := LGCRF 2 1 [2; 2]%nat [0; 0; 1; 1]%nat.
Definition ex24_t : ltg_crf := LTG ex24_g 4.
Definition ex24_d : ldg_crf := LDG ex24_g 2 4.
(** the clusterer assigns by sign, if there are enough rows *)
Definition ex24_cluster : clusterer := fun _ k rows =>
  if ((0 <? k) && (k <=? length rows))%nat then Ok (fun r => if Qcltb (get1 r 0) 0 then (k - 1)%nat else O) else Err ValueError.
Lemma ex24_fits : fits_enough ex24_cluster /\ clusters ex24_cluster.
Proof.
  unfold ex24_cluster. split.
  - intros l k rows. destruct (Nat.ltb_spec 0 k), (Nat.leb_spec k (length rows)); cbn [andb]; split; try lia; try (intros [km E]; discriminate E); intros _; try (eexists; reflexivity); lia.
  - intros l k rows km E r. destruct (Nat.ltb_spec 0 k), (Nat.leb_spec k (length rows)); cbn [andb] in E; try discriminate E. injection E as <-. destruct (Qcltb (get1 r 0) 0); lia.
Qed.
(** state 1 likes x = 1, state 2 likes x = -1; weight 1 for states 1 and 2 side by side *)
Definition ex24_w : list Qc := [0; 1; - (1); 0] ++ [0; 0; 0; 0; 1; 0; 0; 0; 0; 0].
Definition ex24_wd : list Qc := [0; 1; - (1); 0] ++ [0; 0; 0; 0;  0; 0; 1; 0;  0; 0; 0; 0;  0; 0; 0; 0] ++ repeat 0 16.
Definition ex24_solve : solver := fun U p e => inference_max_product U p e 30 (Q2Qc (1 # 2)) 0.
Lemma ex24_exact_tables : exact_on_tables ex24_solve 2 [(0, 1)]%nat.
Proof. change [(0, 1)]%nat with (chain_edges 2). intros U p k HU Hr Hc Hp Hk. unfold ex24_solve. apply max_product_chain; auto; lia. Qed.
Lemma exact_tables_shared solve n es : exact_on_tables solve n es -> exact_solver_on solve n es.
Proof. intros H U m k O1 O2 R C R' C' Hk. apply (H U (Pw2 m) k); try assumption. split; assumption. Qed.
Lemma ltg_score nl nf p nb t x es w h : ltg_setup nl nf p nb = Ok t -> (0 < nf)%nat ->
  length (gr_data x) = (gr_h x * gr_w x * nf)%nat -> make_grid_edges (gr_h x) (gr_w x) nb = Ok es ->
  length w = g_size (lg_graph (tg_lg t)) -> labelling (gr_h x * gr_w x) (lg_states (tg_lg t)) h ->
  dot w (t_feat (ltg_task t) x h) =
    score (gr_h x * gr_w x) es (fun i s => unary_score nf w (fun f => get1 (gr_data x) (i * nf + f)) s)
      (fun _ s u => get1 w (lg_states (tg_lg t) * nf + tri_index s u)) (lab h).
Proof.
  intros ET HF HL HE HW Hh. destruct (ltg_setup_inv _ _ _ _ _ ET) as [HG [E1 [E2 E3]]]. subst nl nf nb.
  destruct (gridcrf_score (ltg_grid t) x w h es HE HF HL HW Hh) as [psi [E [_ V]]]. cbn [t_feat ltg_task]. rewrite E. exact V.
Qed.
