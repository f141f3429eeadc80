(** Proofs about the feature extraction of the snake examples. *)
From Coq Require Import ZArith Lia.
From Verif Require Import Spec.SnakesSpec Proofs.Arrays Proofs.EdgeFeatureProofs Proofs.EdgeFeatureProofs2
  Proofs.GridProofs Proofs.GridProofs2.

Lemma aget_atab h w c f i j k : (i < h)%nat -> (j < w)%nat -> (k < c)%nat -> aget (atab h w c f) i j k = f i j k.
Proof.
  intros Hi Hj Hk. unfold aget, atab. cbn [a_dat].
  rewrite (nth_map_seq (fun i => map (fun j => tab1 c (f i j)) (seq 0 w))) by exact Hi.
  rewrite (nth_map_seq (fun j => tab1 c (f i j))) by exact Hj. apply get1_tab1, Hk.
Qed.

(** ** colours *)
Lemma is_int_spec q : is_int q = true <-> exists z, q = ofZ z.
Proof.
  unfold is_int. rewrite Pos.eqb_eq. split.
  - intro H. exists (Qnum q). apply Qc_is_canon. rewrite this_ofZ. destruct q as [[n d] C]. cbn in *. subst d. reflexivity.
  - intros [z ->]. unfold ofZ, Q2Qc. cbn [this]. rewrite Qred_identity; [reflexivity|]. cbn. apply Z.gcd_1_r.
Qed.
Lemma color_code_eq x i j : color_code x i j = (aget x i j 0 + ofN 2 * aget x i j 1 + ofN 4 * aget x i j 2) / ofN 255.
Proof.
  unfold color_code, sumn, Qcdiv. change (2 ^ 0)%nat with 1%nat. change (2 ^ 1)%nat with 2%nat. change (2 ^ 2)%nat with 4%nat.
  replace (ofN 1) with 1 by (apply Qc_is_canon; reflexivity). ring.
Qed.

Lemma code_of_pure x i j : (i < a_h x)%nat -> (j < a_w x)%nat -> pure_colours x ->
  is_int (color_code x i j) = true /\
  forall c, (c < 5)%nat -> Qceqb (color_code x i j) (ofN (nth c color_classes O)) =
    is_channel (colour_channel (lit x i j 0) (lit x i j 1) (lit x i j 2)) c.
Proof.
  intros Hi Hj HP. rewrite color_code_eq. unfold lit.
  destruct (HP i j 0%nat Hi Hj ltac:(lia)) as [-> | ->];
  destruct (HP i j 1%nat Hi Hj ltac:(lia)) as [-> | ->];
  destruct (HP i j 2%nat Hi Hj ltac:(lia)) as [-> | ->];
  (split; [vm_compute; reflexivity|]);
  (intros c Hc; do 5 (destruct c as [|c]; [vm_compute; reflexivity|]); lia).
Qed.

Lemma one_hot_pure : forall (x : arr3), pure_colours x -> a_c x = 3%nat -> (0 < a_h x * a_w x)%nat ->
  exists p, one_hot_colors x = Ok p /\ a_h p = a_h x /\ a_w p = a_w x /\ a_c p = 5%nat /\
    forall i j c, (i < a_h x)%nat -> (j < a_w x)%nat -> (c < 5)%nat ->
      aget p i j c = ind (is_channel (colour_channel (lit x i j 0) (lit x i j 1) (lit x i j 2)) c).
Proof.
  intros x HP HC HN. unfold one_hot_colors.
  replace (a_h x * a_w x =? 0)%nat with false by (symmetry; apply Nat.eqb_neq; lia).
  rewrite HC. cbn [orb negb Nat.eqb].
  match goal with |- context [ensure ?b _] => replace b with true end.
  2:{ symmetry. apply forallb_forall. intros i Hi. apply forallb_forall. intros j Hj. apply in_seq in Hi, Hj.
      apply code_of_pure; [lia|lia|exact HP]. }
  cbn [ensure bind]. eexists. split; [reflexivity|]. split; [reflexivity|]. split; [reflexivity|]. split; [reflexivity|].
  intros i j c Hi Hj Hc. rewrite aget_atab by assumption. f_equal. apply code_of_pure; assumption.
Qed.
Lemma one_hot_errors : forall (x : arr3),
  (a_h x * a_w x = 0)%nat \/ a_c x <> 3%nat \/
  (exists i j, (i < a_h x)%nat /\ (j < a_w x)%nat /\
     forall z, (aget x i j 0 + ofN 2 * aget x i j 1 + ofN 4 * aget x i j 2) / ofN 255 <> ofZ z) ->
  one_hot_colors x = Err ValueError.
Proof.
  intros x H. unfold one_hot_colors.
  destruct (Nat.eqb_spec (a_h x * a_w x) 0) as [E|E]; [reflexivity|].
  destruct (Nat.eqb_spec (a_c x) 3) as [E3|E3]; [|reflexivity]. cbn [orb negb].
  destruct H as [H|[H|[i [j [Hi [Hj H]]]]]]; [contradiction|contradiction|].
  match goal with |- context [ensure ?b _] => replace b with false; [reflexivity|] end.
  symmetry. apply not_true_is_false. intro K. rewrite forallb_forall in K.
  specialize (K i ltac:(apply in_seq; lia)). rewrite forallb_forall in K. specialize (K j ltac:(apply in_seq; lia)).
  apply is_int_spec in K. destruct K as [z K]. apply (H z). rewrite <- color_code_eq. exact K.
Qed.

(** ** patches *)
Lemma slots_fold x f i j c s : a_c x = 5%nat -> (s < 9)%nat ->
  fold_left (set_slot x) slots f i j c s =
    let o := patch_offset s in
    let i' := (Z.of_nat i + fst o)%Z in let j' := (Z.of_nat j + snd o)%Z in
    if ((0 <=? i') && (i' <? Z.of_nat (a_h x)) && ((0 <=? j') && (j' <? Z.of_nat (a_w x))))%Z
    then aget x (Z.to_nat i') (Z.to_nat j') c else f i j c s.
Proof.
  intros HC Hs. unfold slots. cbn [fold_left]. unfold set_slot. rewrite HC. cbn [Nat.eqb].
  do 9 (destruct s as [|s]; [reflexivity|]). lia.
Qed.
Lemma patch_ok x : a_c x = 5%nat -> (0 < a_h x * a_w x)%nat ->
  exists m, neighborhood_feature x = Ok m /\ mat_ok m /\ mrows m = (a_h x * a_w x)%nat /\ mcols m = 45%nat /\
    forall i j c s, (i < a_h x)%nat -> (j < a_w x)%nat -> (c < 5)%nat -> (s < 9)%nat ->
      mget m (i * a_w x + j) (c * 9 + s) = pixel_at x i j (patch_offset s) c.
Proof.
  intros HC HN. unfold neighborhood_feature. rewrite HC. cbn [Nat.eqb orb ensure bind].
  replace (a_h x * a_w x =? 0)%nat with false by (symmetry; apply Nat.eqb_neq; lia). cbn [negb ensure bind].
  eexists. split; [reflexivity|]. split; [apply mtab_ok|]. split; [reflexivity|]. split; [reflexivity|].
  intros i j c s Hi Hj Hc Hs. rewrite mget_mtab; [|apply cell_lt; assumption|lia].
  destruct (dm i j (a_w x) Hj) as [-> ->]. destruct (dm c s 9 Hs) as [-> ->].
  rewrite slots_fold by assumption. reflexivity.
Qed.
Lemma patch_errors x : (a_h x * a_w x = 0)%nat \/ (a_c x <> 5%nat /\ a_c x <> 1%nat) -> neighborhood_feature x = Err ValueError.
Proof.
  intro H. unfold neighborhood_feature.
  destruct (Nat.eqb_spec (a_c x) 5); [|destruct (Nat.eqb_spec (a_c x) 1)]; cbn [orb ensure bind].
  - destruct H as [-> |[H _]]; [reflexivity|contradiction].
  - destruct H as [-> |[_ H]]; [reflexivity|contradiction].
  - reflexivity.
Qed.
(** every offset within one row and one column has exactly one position *)
Lemma patch_offsets : forall di dj, (-1 <= di <= 1)%Z -> (-1 <= dj <= 1)%Z ->
  exists s, (s < 9)%nat /\ patch_offset s = (di, dj) /\ forall s', (s' < 9)%nat -> patch_offset s' = (di, dj) -> s' = s.
Proof.
  intros di dj Hi Hj.
  assert (Ei : (di = -1 \/ di = 0 \/ di = 1)%Z) by lia. assert (Ej : (dj = -1 \/ dj = 0 \/ dj = 1)%Z) by lia.
  assert (U : forall s s', (s < 9)%nat -> (s' < 9)%nat -> patch_offset s' = patch_offset s -> s' = s).
  { intros s s' H H' E.
    do 9 (destruct s as [|s]; [do 9 (destruct s' as [|s']; [try reflexivity; discriminate E|]); lia|]). lia. }
  assert (G : exists s, (s < 9)%nat /\ patch_offset s = (di, dj)).
  { destruct Ei as [-> |[->| ->]]; destruct Ej as [-> |[->| ->]];
      [exists 0%nat|exists 3%nat|exists 6%nat|exists 1%nat|exists 8%nat|exists 7%nat|exists 2%nat|exists 5%nat|exists 4%nat];
      (split; [lia|reflexivity]). }
  destruct G as [s [Hs E]]. exists s. split; [exact Hs|]. split; [exact E|]. intros s' Hs' E'. apply U; congruence.
Qed.

(** ** the instances *)
Lemma snake_features_ok (m : mat) h w : mrows m = (h * w)%nat -> (2 <= h * w)%nat ->
  exists ef, snake_edge_features m (g_right h w) (g_down h w) = Ok ef /\ mat_ok ef /\
    mrows ef = length (g_right h w ++ g_down h w) /\ mcols ef = (mcols m * 4)%nat /\
    forall e f, (e < length (g_right h w ++ g_down h w))%nat -> (f < mcols m)%nat ->
      let ab := nth e (g_right h w ++ g_down h w) (0, 0)%nat in
      let o := edge_column w ab in
      mget ef e (f * 4 + o) = mget m (fst ab) f /\ mget ef e (f * 4 + (o + 1)) = mget m (snd ab) f /\
      mget ef e (f * 4 + (2 - o)) = 0 /\ mget ef e (f * 4 + (3 - o)) = 0.
Proof.
  intros HR HN. unfold snake_edge_features.
  match goal with |- context [ensure ?b IndexError] => replace b with true end.
  2:{ symmetry. apply forallb_forall. intros [a b] K. cbn [fst snd]. rewrite HR.
      apply in_app_iff in K. apply andb_true_iff. rewrite !Nat.ltb_lt.
      destruct K as [K|K]; [apply range_right in K|apply range_down in K]; exact K. }
  cbn [ensure bind].
  assert (HE : (0 < length (g_right h w ++ g_down h w))%nat).
  { rewrite app_length. unfold g_right, g_down. rewrite !gtab_length. nia. }
  replace (length (g_right h w ++ g_down h w) =? 0)%nat with false by (symmetry; apply Nat.eqb_neq; lia).
  cbn [negb ensure bind]. eexists. split; [reflexivity|]. split; [apply mtab_ok|]. split; [reflexivity|]. split; [reflexivity|].
  intros e f He Hf. set (ab := nth e (g_right h w ++ g_down h w) (0, 0)%nat). set (o := edge_column w ab).
  assert (O : o = if (e <? length (g_right h w))%nat then 0%nat else 2%nat).
  { subst o ab. unfold edge_column. destruct (nth e (g_right h w ++ g_down h w) (0, 0)%nat) as [a b] eqn:En. cbn [fst snd].
    destruct (Nat.ltb_spec e (length (g_right h w))) as [L|L].
    - rewrite app_nth1 in En by exact L.
      assert (Hin : In (a, b) (g_right h w)) by (rewrite <- En; apply nth_In, L).
      destruct (range_right _ _ _ _ Hin). apply in_right in Hin; [|assumption..]. unfold row_dist, dist.
      destruct Hin as [-> _]. rewrite Nat.sub_diag. reflexivity.
    - rewrite app_nth2 in En by exact L.
      assert (L2 : (e - length (g_right h w) < length (g_down h w))%nat) by (rewrite app_length in He; lia).
      assert (Hin : In (a, b) (g_down h w)) by (rewrite <- En; apply nth_In, L2).
      destruct (range_down _ _ _ _ Hin). apply in_down in Hin; [|assumption..]. unfold row_dist, dist.
      destruct (Nat.eqb_spec (a / w - b / w + (b / w - a / w)) 0); [lia|reflexivity]. }
  assert (G : forall s, (s < 4)%nat -> mget (mtab (length (g_right h w ++ g_down h w)) (mcols m * 4) (fun e0 col =>
      let '(a, b) := nth e0 (g_right h w ++ g_down h w) (0, 0)%nat in
      let f0 := (col / 4)%nat in let slot := (col mod 4)%nat in
      let first := if (e0 <? length (g_right h w))%nat then 0%nat else 2%nat in
      if (slot =? first)%nat then mget m a f0 else if (slot =? first + 1)%nat then mget m b f0 else 0)) e (f * 4 + s) =
      if (s =? o)%nat then mget m (fst ab) f else if (s =? o + 1)%nat then mget m (snd ab) f else 0).
  { intros s Hs. rewrite mget_mtab; [|exact He|nia]. destruct (dm f s 4 Hs) as [-> ->]. rewrite <- O.
    fold ab. destruct ab as [a b]. reflexivity. }
  assert (Ho : o = 0%nat \/ o = 2%nat) by (rewrite O; destruct (e <? _)%nat; auto).
  rewrite !G by lia. destruct Ho as [-> | ->]; repeat split; reflexivity.
Qed.

Lemma prepare_ok : forall (x : arr3) (k : nat), a_c x = 5%nat -> (2 <= a_h x * a_w x)%nat ->
  exists d e m, prepare_picture x = Ok (d, e) /\ neighborhood_feature x = Ok m /\
    ex_features d = m /\ ex_features e = m /\ ex_edges e = ex_edges d /\
    make_grid_edges (a_h x) (a_w x) 4 = Ok (ex_edges d) /\
    ef_check_x (EFCRF k 45 2 [] []) d = Ok tt /\ ef_check_x (EFCRF k 45 180 [] []) e = Ok tt /\
    (forall i, (i < length (ex_edges d))%nat ->
       let ab := nth i (ex_edges d) (0, 0)%nat in
       mget (ex_edge_features d) i 0 = ind (row_dist (a_w x) (fst ab) (snd ab) =? 0)%nat /\
       mget (ex_edge_features d) i 1 = ind (col_dist (a_w x) (fst ab) (snd ab) =? 0)%nat) /\
    (forall i f, (i < length (ex_edges d))%nat -> (f < 45)%nat ->
       let ab := nth i (ex_edges d) (0, 0)%nat in
       let o := edge_column (a_w x) ab in
       mget (ex_edge_features e) i (f * 4 + o) = mget m (fst ab) f /\
       mget (ex_edge_features e) i (f * 4 + (o + 1)) = mget m (snd ab) f /\
       mget (ex_edge_features e) i (f * 4 + (2 - o)) = 0 /\ mget (ex_edge_features e) i (f * 4 + (3 - o)) = 0).
Proof.
  intros x k HC HN. destruct (patch_ok x HC ltac:(lia)) as [m [Em [Om [Rm [Cm Gm]]]]].
  destruct (snake_features_ok m (a_h x) (a_w x) Rm HN) as [ef [Ef [Oe [Re [Ce Ge]]]]].
  assert (Es : make_grid_edges (a_h x) (a_w x) 4 = Ok (g_right (a_h x) (a_w x) ++ g_down (a_h x) (a_w x))).
  { unfold make_grid_edges. rewrite grid_lists. cbn [Nat.eqb bind concat]. rewrite app_nil_r. reflexivity. }
  assert (El := grid_lists (a_h x) (a_w x) 4). cbn [Nat.eqb] in El.
  destruct (edge_direction_features _ _ _ _ Es El) as [dd [Ed [Od [Rd [Cd Gd]]]]].
  unfold prepare_picture. rewrite El. cbn [bind]. rewrite Em. cbn [bind]. rewrite Ed. cbn [bind]. rewrite Ef. cbn [bind].
  eexists. eexists. exists m. split; [reflexivity|]. split; [exact eq_refl|]. cbn [ex_features ex_edges ex_edge_features].
  split; [reflexivity|]. split; [reflexivity|]. split; [reflexivity|]. split; [exact Es|].
  split. { unfold ef_check_x. cbn [ex_features ex_edges ex_edge_features ef_features ef_edge_features].
    rewrite Cm, Rd, Cd, !Nat.eqb_refl. reflexivity. }
  split. { unfold ef_check_x. cbn [ex_features ex_edges ex_edge_features ef_features ef_edge_features].
    rewrite Ce, Re, Cm, !Nat.eqb_refl. reflexivity. }
  split.
  - intros i Hi. specialize (Gd i Hi).
    set (ab := nth i _ (0, 0)%nat) in *. destruct ab as [a b]. cbn [fst snd].
    destruct Gd as [[-> [-> [-> ->]]]|[-> [-> [-> ->]]]]; split; reflexivity.
  - intros i f Hi Hf. apply Ge; [exact Hi|]. rewrite Cm. exact Hf.
Qed.
Lemma prepare_errors : forall (x : arr3),
  (a_h x * a_w x <= 1)%nat \/ (a_c x <> 5%nat /\ a_c x <> 1%nat) -> prepare_picture x = Err ValueError.
Proof.
  intros x H. unfold prepare_picture. rewrite grid_lists. cbn [Nat.eqb bind].
  destruct (neighborhood_feature x) as [m|e] eqn:Em.
  - assert (A : ~ (a_h x * a_w x = 0)%nat) by (intro A; rewrite (patch_errors x (or_introl A)) in Em; discriminate).
    assert (B : ~ (a_c x <> 5%nat /\ a_c x <> 1%nat)) by (intro B; rewrite (patch_errors x (or_intror B)) in Em; discriminate).
    destruct H as [H|H]; [|contradiction].
    assert (Hh : a_h x = 1%nat /\ a_w x = 1%nat).
    { clear - A H. destruct (a_h x) as [|[|h]]; [lia| |]; destruct (a_w x) as [|[|w]]; nia. }
    destruct Hh as [-> ->]. reflexivity.
  - cbn [bind]. unfold neighborhood_feature in Em. revert Em.
    destruct ((a_c x =? 5)%nat || (a_c x =? 1)%nat); cbn [ensure bind]; [|congruence].
    destruct (a_h x * a_w x =? 0)%nat; cbn; congruence.
Qed.

(** the score of an edge is linear in the patches of its two ends, with one set of weights for
    horizontal edges and another one for vertical edges *)
Lemma snake_edge_score : forall (x : arr3) (k : nat) (d e : ef_x) (m : mat) (w : list Qc) (i s t : nat),
  a_c x = 5%nat -> prepare_picture x = Ok (d, e) -> neighborhood_feature x = Ok m -> (i < length (ex_edges e))%nat ->
  let ab := nth i (ex_edges e) (0, 0)%nat in
  let o := edge_column (a_w x) ab in
  edge_score 180 k 45 w (mget (ex_edge_features e) i) s t =
    sumn 45 (fun f => mget m (fst ab) f * edge_weight k 45 w (f * 4 + o) s t +
                      mget m (snd ab) f * edge_weight k 45 w (f * 4 + (o + 1)) s t).
Proof.
  intros x k d e m w i s t HC HP HM Hi ab o.
  assert (HN : (2 <= a_h x * a_w x)%nat).
  { destruct (le_lt_dec 2 (a_h x * a_w x)) as [L|L]; [exact L|]. rewrite prepare_errors in HP by (left; lia). discriminate. }
  destruct (prepare_ok x k HC HN) as [d' [e' [m' [E1 [E2 [_ [_ [E3 [_ [_ [_ [_ G]]]]]]]]]]]].
  rewrite HP in E1. injection E1 as <- <-. rewrite HM in E2. injection E2 as <-. rewrite <- E3 in G.
  unfold edge_score. change 180%nat with (45 * 4)%nat. rewrite sumn_mul. apply sumn_ext. intros f Hf.
  destruct (G i f Hi Hf) as [G1 [G2 [G3 G4]]]. fold ab in G1, G2, G3, G4. fold o in G1, G2, G3, G4.
  assert (Ho : o = 0%nat \/ o = 2%nat) by (unfold o, edge_column; destruct (_ =? _)%nat; auto).
  clearbody o ab. unfold sumn. destruct Ho as [-> | ->]; cbn [Nat.sub Nat.add] in *; rewrite G1, G2, G3, G4; ring.
Qed.
Lemma prepare_data_ok : forall (X : list arr3), Forall (fun x => a_c x = 5%nat /\ (2 <= a_h x * a_w x)%nat) X ->
  exists D E, prepare_data X = Ok (D, E) /\ length D = length X /\ length E = length X /\
    forall n x, nth_error X n = Some x -> exists d e, nth_error D n = Some d /\ nth_error E n = Some e /\ prepare_picture x = Ok (d, e).
Proof.
  intros X HX. unfold prepare_data.
  assert (K : exists r, mapM prepare_picture X = Ok r /\ Forall2 (fun x de => prepare_picture x = Ok de) X r).
  { induction HX as [|x X [H1 H2] _ IH]; [exists []; split; [reflexivity|constructor]|].
    destruct IH as [r [E F]]. destruct (prepare_ok x 0 H1 H2) as [d [e [_ [E' _]]]].
    exists ((d, e) :: r). split; [|constructor; assumption]. cbn [mapM]. rewrite E', E. reflexivity. }
  destruct K as [r [-> F]]. cbn [bind]. exists (map fst r), (map snd r). split; [reflexivity|].
  assert (L : length r = length X) by (clear - F; induction F; cbn; congruence). rewrite !map_length. split; [exact L|]. split; [exact L|].
  clear L HX. induction F as [|x [d e] X r H F IH]; intros [|n] y Hn; try discriminate Hn.
  - injection Hn as <-. exists d, e. split; [reflexivity|]. split; [reflexivity|exact H].
  - exact (IH n y Hn).
Qed.
