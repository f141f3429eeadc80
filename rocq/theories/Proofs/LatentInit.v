(** When k-means initialisation succeeds. *)
From Verif Require Import Model.LatentGraph Model.LatentLearner Spec.GraphSpec
  Proofs.Arrays Proofs.GraphCRFProofs Proofs.LossProofs Proofs.LatentProofs Spec.LatentSpec.

Lemma rows_count {A} l : forall (f : list A) y, length f = length y -> length (rows_of l f y) = count_occ Nat.eq_dec y l.
Proof.
  unfold rows_of. induction f as [|a f IH]; intros [|z y] L; try discriminate L; [reflexivity|]. cbn [combine filter snd count_occ].
  specialize (IH y ltac:(cbn in L; lia)). rewrite map_length in IH |- *. destruct (Nat.eq_dec z l) as [->|N].
  - rewrite Nat.eqb_refl. cbn [length]. f_equal. exact IH.
  - apply Nat.eqb_neq in N. rewrite N. exact IH.
Qed.
Lemma all_rows_count l : forall F : list kstate, Forall (fun s => length (fst (fst s)) = length (snd (fst s))) F ->
  length (concat (map (fun s : kstate => rows_of l (fst (fst s)) (snd (fst s))) F)) = count_occ Nat.eq_dec (concat (map (fun s => snd (fst s)) F)) l.
Proof.
  induction F as [|s F IH]; intros H; [reflexivity|]. apply Forall_cons_iff in H. destruct H as [H1 H2]. cbn [map concat].
  rewrite app_length, count_occ_app, rows_count, IH by assumption. reflexivity.
Qed.
Lemma kmeans_label_iff cluster counts nl l (F : list kstate) : fits_enough cluster -> length counts = nl -> (l < nl)%nat ->
  Forall (fun s => length (fst (fst s)) = length (snd (fst s))) F ->
  (exists F', kmeans_label cluster counts l F = Ok F') <->
  (0 < nth l counts O)%nat /\ (nth l counts O <= count_occ Nat.eq_dec (concat (map (fun s => snd (fst s)) F)) l)%nat.
Proof.
  intros HC HL Hl HF. rewrite <- (all_rows_count l F HF). rewrite <- (HC l (nth l counts O) _). unfold kmeans_label. rewrite (index_ok counts l O) by lia. cbn [bind]. split.
  - intros [F' E]. apply bind_ok in E. destruct E as [km [E _]]. exists km. exact E.
  - intros [km E]. rewrite E. cbn [bind]. rewrite (index_ok (O :: np_cumsum counts) l O) by (cbn [length]; unfold np_cumsum; rewrite cumsum_from_length; lia). cbn [bind]. eexists. reflexivity.
Qed.
Lemma kmeans_label_same cluster counts l (F F' : list kstate) : kmeans_label cluster counts l F = Ok F' ->
  map (fun s : kstate => fst s) F' = map (fun s => fst s) F.
Proof.
  unfold kmeans_label. intros E. repeat (apply bind_ok in E; destruct E as [? [? E]]). injection E as <-. rewrite map_map. apply map_ext. intros [[f y] h]. reflexivity.
Qed.
Lemma kmeans_loop_iff cluster counts nl : fits_enough cluster -> length counts = nl -> forall labels (F : list kstate), Forall (fun l => (l < nl)%nat) labels ->
  Forall (fun s => length (fst (fst s)) = length (snd (fst s))) F ->
  (exists F', kmeans_loop cluster counts labels F = Ok F') <->
  forall l, In l labels -> (0 < nth l counts O)%nat /\ (nth l counts O <= count_occ Nat.eq_dec (concat (map (fun s => snd (fst s)) F)) l)%nat.
Proof.
  intros HC HL. induction labels as [|l r IH]; intros F HB HF; cbn [kmeans_loop].
  - split; [intros _ l []|]. intros _. exists F. reflexivity.
  - apply Forall_cons_iff in HB. destruct HB as [B1 B2]. pose proof (kmeans_label_iff cluster counts nl l F HC HL B1 HF) as K.
    assert (T : forall F', kmeans_label cluster counts l F = Ok F' -> Forall (fun s : kstate => length (fst (fst s)) = length (snd (fst s))) F' /\
       map (fun s : kstate => snd (fst s)) F' = map (fun s => snd (fst s)) F).
    { intros F' E. apply kmeans_label_same in E. split.
      - assert (Q : Forall (fun p : list (list Qc) * list nat => length (fst p) = length (snd p)) (map (fun s : kstate => fst s) F')).
        { rewrite E. apply Forall_map. exact HF. }
        rewrite Forall_map in Q. exact Q.
      - transitivity (map snd (map (fun s : kstate => fst s) F')); [rewrite map_map; reflexivity|]. rewrite E, map_map. reflexivity. }
    split.
    + intros [F' E]. apply bind_ok in E. destruct E as [F1 [E1 E]]. destruct (T F1 E1) as [T1 T2].
      intros k [<-|Hk]; [apply K; exists F1; exact E1|]. rewrite <- T2. apply (proj1 (IH F1 B2 T1)); [exists F'; exact E|exact Hk].
    + intros H. destruct (proj2 K (H l (or_introl eq_refl))) as [F1 E1]. destruct (T F1 E1) as [T1 T2]. rewrite E1. cbn [bind].
      apply (IH F1 B2 T1). intros k Hk. rewrite T2. apply H. right. exact Hk.
Qed.
Lemma kmeans_iff cluster nl counts sym S w : fits_enough cluster -> length counts = nl -> S <> [] ->
  Forall (fun s => let '(x, y, e) := s in length y = mrows x /\ Forall (fun l => (l < nl)%nat) y /\ e <> [] /\
            (mcols x + (if sym : bool then 1 else 2) * nl * length e)%nat = w /\ Forall (graph_edges (mrows x)) e) S ->
  (exists H, kmeans_init cluster nl counts sym S = Ok H) <-> enough_nodes counts (map (fun s => snd (fst s)) S).
Proof.
  intros HC HL HS HW. unfold kmeans_init.
  assert (A : exists F : list kstate, mapM (fun s : mat * list nat * list (list (nat * nat)) => let '(x, y, edges) := s in
                           let! f := neighbor_features nl sym x y edges in Ok (f, y, repeat O (length y))) S = Ok F /\
              Forall (fun s => length (fst (fst s)) = length (snd (fst s))) F /\ map (fun s => snd (fst s)) F = map (fun s => snd (fst s)) S).
  { clear HS. induction S as [|[[x y] e] S IH]; [exists []; repeat split; constructor|]. apply Forall_cons_iff in HW. destruct HW as [[W1 [W2 [W3 [_ W4]]]] HW]. cbn [mapM].
    destruct (IH HW) as [F [EF [L1 L2]]]. rewrite EF.
    assert (N : exists f, neighbor_features nl sym x y e = Ok f).
    { unfold neighbor_features. rewrite W1, Nat.eqb_refl. cbn [ensure bind]. rewrite one_hot_ok by exact W2. cbn [bind].
      replace (forallb _ e) with true.
      2:{ symmetry. apply forallb_forall. intros ed Hed. apply forallb_forall. intros p Hp. rewrite Forall_forall in W4. specialize (W4 ed Hed). unfold graph_edges in W4.
          rewrite Forall_forall in W4. destruct (W4 p Hp) as [G1 G2]. apply Nat.ltb_lt in G1, G2. rewrite G1, G2. reflexivity. }
      cbn [ensure bind]. destruct e as [|e0 e]; [contradiction|]. destruct sym; cbn [map flat_map app length Nat.eqb negb ensure bind]; eexists; reflexivity. }
    destruct N as [f N]. rewrite N. cbn [bind]. eexists. split; [reflexivity|]. cbn [map fst snd]. split; [constructor; [exact (proj1 (neighbor_length _ _ _ _ _ _ N))|exact L1]|]. f_equal. exact L2. }
  destruct A as [F [EF [L1 L2]]]. rewrite EF. cbn [bind].
  replace (match map _ S with [] => false | a :: r => forallb (Nat.eqb a) r end) with true.
  2:{ symmetry. destruct S as [|s S]; [contradiction|]. cbn [map]. apply forallb_forall. intros b Hb. apply in_map_iff in Hb. destruct Hb as [s' [<- Hs']].
      rewrite Forall_forall in HW. pose proof (HW s (or_introl eq_refl)) as Q1. pose proof (HW s' (or_intror Hs')) as Q2. destruct s as [[x y] e], s' as [[x' y'] e'].
      destruct Q1 as [_ [_ [_ [Q1 _]]]]. destruct Q2 as [_ [_ [_ [Q2 _]]]]. apply Nat.eqb_eq. congruence. }
  cbn [ensure bind]. set (labels := filter _ _). assert (HLb : Forall (fun l => (l < nl)%nat) labels).
  { apply Forall_forall. intros l Hl. apply filter_In in Hl. destruct Hl as [Hl _]. apply in_seq in Hl. lia. }
  assert (HIn : forall l, In l labels <-> In l (concat (map (fun s : kstate => snd (fst s)) F))).
  { intros l. unfold labels. rewrite filter_In. split.
    - intros [_ Q]. apply existsb_exists in Q. destruct Q as [z [Z1 Z2]]. apply Nat.eqb_eq in Z2. subst z. exact Z1.
    - intros Q. split; [|apply existsb_exists; exists l; split; [exact Q|apply Nat.eqb_refl]]. apply in_seq. rewrite L2 in Q.
      apply in_concat in Q. destruct Q as [y [Q1 Q2]]. apply in_map_iff in Q1. destruct Q1 as [[[x y'] e] [Q1 Q3]]. cbn [fst snd] in Q1. subst y'.
      rewrite Forall_forall in HW. destruct (HW _ Q3) as [_ [W2 _]]. rewrite Forall_forall in W2. specialize (W2 l Q2). lia. }
  clearbody labels. pose proof (kmeans_loop_iff cluster counts nl HC HL labels F HLb L1) as K. unfold enough_nodes. rewrite <- L2. split.
  - intros [H E]. apply bind_ok in E. destruct E as [F' [E _]]. intros l Hl. apply (proj1 K); [exists F'; exact E|]. apply HIn. exact Hl.
  - intros H. destruct (proj2 K) as [F' E]; [intros l Hl; apply H, HIn, Hl|]. rewrite E. cbn [bind]. eexists. reflexivity.
Qed.
Lemma init_iff cluster nl nf p g S : S <> [] -> lg_setup nl nf p = Ok g -> fits_enough cluster ->
  Forall (fun s => labelling (mrows (gx_features (fst s))) nl (snd s) /\ mcols (gx_features (fst s)) = nf /\
                   graph_edges (mrows (gx_features (fst s))) (gx_edges (fst s))) S ->
  (exists H, lg_init_latent cluster g S = Ok H) <-> enough_nodes (lg_counts g) (map snd S).
Proof.
  intros HS EG HK HF. destruct (setup_laid_out _ _ _ _ EG) as [HG [E1 _]]. assert (HL : length (lg_counts g) = lg_labels g) by apply HG. subst nl.
  unfold lg_init_latent. rewrite (kmeans_iff cluster _ _ true _ (nf + 1 * lg_labels g * 1)%nat HK HL).
  - rewrite map_map. reflexivity.
  - destruct S; [congruence|discriminate].
  - apply Forall_map. apply Forall_impl with (2 := HF). intros s [[A1 A2] [A3 A4]]. cbn [length]. split; [exact A1|]. split; [exact A2|]. split; [discriminate|]. split; [rewrite A3; reflexivity|].
    constructor; [exact A4|constructor].
Qed.
(** a clusterer as in [fits_enough]: the last cluster for everything *)
Definition last_cluster : clusterer := fun _ k rows => if ((0 <? k) && (k <=? length rows))%nat then Ok (fun _ => k - 1)%nat else Err ValueError.
Lemma last_cluster_fits : fits_enough last_cluster /\ clusters last_cluster.
Proof.
  unfold last_cluster. split.
  - intros l k rows. destruct (Nat.ltb_spec 0 k), (Nat.leb_spec k (length rows)); cbn [andb]; split; try lia; try (intros [km E]; discriminate E); intros _; try (eexists; reflexivity); lia.
  - intros l k rows km E r. destruct (Nat.ltb_spec 0 k), (Nat.leb_spec k (length rows)); cbn [andb] in E; try discriminate E. injection E as <-. lia.
Qed.
