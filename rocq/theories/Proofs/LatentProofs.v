(** Layout of latent states; label_from_latent; k-means initialisation. *)
From Verif Require Import Proofs.Arrays Proofs.LossProofs Model.LatentGraph Spec.LatentSpec.

Lemma cumsum_from_nth : forall c acc l, (l < length c)%nat -> nth l (cumsum_from acc c) O = (acc + offset c (S l))%nat.
Proof.
  induction c as [|a c IH]; intros acc l H; [cbn in H; lia|]. destruct l as [|l]; cbn [cumsum_from nth].
  - unfold offset. cbn. lia.
  - rewrite IH by (cbn in H; lia). unfold offset. cbn [firstn]. cbn [list_sum fold_right]. unfold list_sum. lia.
Qed.
Lemma cumsum_nth c l : (l < length c)%nat -> nth l (np_cumsum c) O = offset c (S l).
Proof. intros H. unfold np_cumsum. rewrite cumsum_from_nth by exact H. lia. Qed.
Lemma cumsum_from_length : forall c acc, length (cumsum_from acc c) = length c.
Proof. induction c; intros acc; cbn; auto. Qed.
Lemma offset_0 c : offset c 0 = 0%nat. Proof. reflexivity. Qed.
Lemma offset_S : forall c l, (l < length c)%nat -> offset c (S l) = (offset c l + nth l c 0)%nat.
Proof.
  induction c as [|a c IH]; intros l H; [cbn in H; lia|]. destruct l as [|l]; [unfold offset; cbn; lia|]. cbn [length] in H.
  change (offset (a :: c) (S (S l))) with (a + offset c (S l))%nat. change (offset (a :: c) (S l)) with (a + offset c l)%nat. rewrite IH by lia. cbn [nth]. lia.
Qed.
Lemma offset_all c l : (length c <= l)%nat -> offset c l = list_sum c.
Proof. intros H. unfold offset. rewrite firstn_all2 by exact H. reflexivity. Qed.
Lemma offset_mono c a b : (a <= b)%nat -> (offset c a <= offset c b)%nat.
Proof.
  revert a b. induction c as [|x c IH]; intros a b H; [unfold offset; rewrite !firstn_nil; lia|].
  destruct a, b; try lia; [cbn; lia|]. change (offset (x :: c) (S a)) with (x + offset c a)%nat. change (offset (x :: c) (S b)) with (x + offset c b)%nat.
  specialize (IH a b). lia.
Qed.
Lemma offset_le c l : (offset c l <= list_sum c)%nat.
Proof. destruct (Nat.le_ge_cases l (length c)) as [H|H]; [|rewrite offset_all by exact H; lia]. rewrite <- (offset_all c (length c)) by lia. apply offset_mono, H. Qed.

Lemma owner_block : forall c s, (s < list_sum c)%nat -> in_block c (owner c s) s.
Proof.
  induction c as [|a c IH]; intros s H; [cbn in H; lia|]. cbn [owner]. destruct (Nat.ltb_spec s a) as [L|L].
  - split; [cbn; lia|]. unfold offset. cbn. lia.
  - assert (H' : (s - a < list_sum c)%nat) by (cbn in H; unfold list_sum; lia). destruct (IH _ H') as [B1 B2]. split; [cbn; lia|].
    change (offset (a :: c) (S (owner c (s - a)))) with (a + offset c (owner c (s - a)))%nat.
    change (offset (a :: c) (S (S (owner c (s - a))))) with (a + offset c (S (owner c (s - a))))%nat. lia.
Qed.
Lemma block_states c l s : in_block c l s -> (s < list_sum c)%nat.
Proof. intros [H1 H2]. pose proof (offset_le c (S l)). lia. Qed.
Lemma block_unique c l l' s : in_block c l s -> in_block c l' s -> l = l'.
Proof.
  intros [A1 A2] [B1 B2]. destruct (Nat.lt_trichotomy l l') as [H|[H|H]]; [|exact H|].
  - pose proof (offset_mono c (S l) l' H). lia.
  - pose proof (offset_mono c (S l') l H). lia.
Qed.
Lemma block_owner c l s : in_block c l s -> owner c s = l.
Proof. intros H. apply (block_unique c _ _ s); [apply owner_block, (block_states c l), H|exact H]. Qed.
Lemma owner_lt c s : (s < list_sum c)%nat -> (owner c s < length c)%nat.
Proof. intros H. exact (proj1 (owner_block c s H)). Qed.

(** ** the map *)
Lemma assign_slice_length m a b v : length (assign_slice m a b v) = length m.
Proof. unfold assign_slice. rewrite map_length, combine_length, seq_length. lia. Qed.
Lemma assign_slice_nth m a b v i : (i < length m)%nat ->
  nth i (assign_slice m a b v) O = if ((a <=? i) && (i <? b))%nat then v else nth i m O.
Proof.
  intros H. unfold assign_slice. set (f := fun p : nat * nat => _).
  rewrite (nth_indep _ O (f (O, O))) by (rewrite map_length, combine_length, seq_length; lia). rewrite map_nth, combine_nth by apply seq_length.
  rewrite seq_nth by exact H. reflexivity.
Qed.
Lemma map_loop counts : forall k, (k <= length counts - 1)%nat ->
  let m := fold_left (fun m l => assign_slice m (nth (l - 1) (np_cumsum counts) O) (nth l (np_cumsum counts) O) l)
                     (seq 1 k) (repeat O (list_sum counts)) in
  length m = list_sum counts /\
  forall i, (i < list_sum counts)%nat -> nth i m O = if (i <? offset counts (S k))%nat then owner counts i else O.
Proof.
  induction k as [|k IH]; intros Hk.
  - cbn [seq fold_left]. split; [apply repeat_length|]. intros i Hi. rewrite nth_repeat. destruct (Nat.ltb_spec i (offset counts 1)) as [L|L]; [|reflexivity].
    symmetry. apply block_owner. split; [|rewrite offset_0; lia]. destruct counts; [cbn in Hi; lia|cbn; lia].
  - rewrite seq_S, fold_left_app. cbn [fold_left]. destruct (IH ltac:(lia)) as [L1 L2].
    set (m := fold_left _ (seq 1 k) _) in *. split; [rewrite assign_slice_length; exact L1|]. intros i Hi.
    rewrite assign_slice_nth by (rewrite L1; exact Hi). replace (1 + k - 1)%nat with k by lia. replace (1 + k)%nat with (S k) by lia.
    rewrite !cumsum_nth by lia. rewrite L2 by exact Hi.
    destruct (Nat.leb_spec (offset counts (S k)) i) as [A|A]; destruct (Nat.ltb_spec i (offset counts (S (S k)))) as [B|B]; cbn [andb].
    + symmetry. apply block_owner. split; [lia|]. split; assumption.
    + destruct (Nat.ltb_spec i (offset counts (S k))); [lia|reflexivity].
    + destruct (Nat.ltb_spec i (offset counts (S k))); [reflexivity|lia].
    + pose proof (offset_mono counts (S k) (S (S k)) ltac:(lia)). lia.
Qed.

(** what lg_setup produces *)
Definition laid_out (g : lg_crf) : Prop :=
  length (lg_counts g) = lg_labels g /\ length (lg_map g) = lg_states g /\
  forall s, (s < lg_states g)%nat -> nth s (lg_map g) O = owner (lg_counts g) s.
Lemma setup_laid_out nl nf p g : lg_setup nl nf p = Ok g -> laid_out g /\ lg_labels g = nl /\ lg_features g = nf /\
  lg_counts g = match p with SameStates k => repeat k nl | StatesList l => l end.
Proof.
  unfold lg_setup. intros E. apply bind_ok in E. destruct E as [c [E1 E2]].
  assert (HC : length c = nl /\ c = match p with SameStates k => repeat k nl | StatesList l => l end).
  { destruct p as [k|l]; [injection E1 as <-; split; [apply repeat_length|reflexivity]|]. apply bind_ok in E1. destruct E1 as [[] [E0 E1]]. injection E1 as <-.
    apply ensure_ok in E0. apply Nat.eqb_eq in E0. auto. }
  destruct HC as [HC1 HC2]. injection E2 as <-. cbn [lg_labels lg_features lg_counts]. split; [|auto].
  destruct (map_loop c (nl - 1) ltac:(lia)) as [L1 L2]. split; [exact HC1|]. split; [exact L1|]. intros s Hs. cbn [lg_map lg_counts].
  change (lg_states _) with (list_sum c) in Hs. rewrite (L2 s Hs). rewrite (offset_all c (S (nl - 1))) by lia.
  destruct (Nat.ltb_spec s (list_sum c)); [reflexivity|lia].
Qed.
Lemma setup_ok nl nf p : match p with SameStates _ => True | StatesList l => length l = nl end -> exists g, lg_setup nl nf p = Ok g.
Proof.
  intros H. unfold lg_setup. destruct p as [k|l]; cbn [bind]; [eexists; reflexivity|]. rewrite H, Nat.eqb_refl. cbn [ensure bind]. eexists. reflexivity.
Qed.
Lemma setup_err nl nf l : length l <> nl -> lg_setup nl nf (StatesList l) = Err ValueError.
Proof. intros H. unfold lg_setup. apply Nat.eqb_neq in H. rewrite H. reflexivity. Qed.

Section Laid.
Variable g : lg_crf.
Hypothesis HG : laid_out g.
Lemma map_index s : (s < lg_states g)%nat -> index (lg_map g) s = Ok (owner (lg_counts g) s).
Proof.
  intros H. destruct HG as [_ [L1 L2]]. rewrite (index_ok _ _ O) by (rewrite L1; exact H). rewrite L2 by exact H. reflexivity.
Qed.
Lemma map_index_out s : (lg_states g <= s)%nat -> index (lg_map g) s = Err IndexError.
Proof.
  intros H. destruct HG as [_ [L1 _]]. unfold index. destruct (nth_error (lg_map g) s) eqn:E; [|reflexivity].
  assert (s < length (lg_map g))%nat by (apply nth_error_Some; congruence). lia.
Qed.
Lemma index_owner s l : index (lg_map g) s = Ok l <-> in_block (lg_counts g) l s.
Proof.
  split; intros H.
  - destruct (Nat.lt_ge_cases s (lg_states g)) as [L|L]; [|rewrite map_index_out in H by exact L; discriminate H].
    rewrite map_index in H by exact L. injection H as <-. apply owner_block. exact L.
  - rewrite map_index by (apply (block_states _ l), H). rewrite (block_owner _ _ _ H). reflexivity.
Qed.
Lemma label_explains : forall h y, label_from_latent g h = Ok y <-> explains (lg_counts g) h y.
Proof.
  unfold label_from_latent. induction h as [|s h IH]; intros y; cbn [mapM].
  - split; intros H; [injection H as <-; constructor|inversion H; reflexivity].
  - split; intros H.
    + apply bind_ok in H. destruct H as [l [E1 H]]. apply bind_ok in H. destruct H as [r [E2 H]]. injection H as <-.
      constructor; [apply index_owner, E1|apply IH, E2].
    + inversion H as [|? l ? r H1 H2]; subst. rewrite (proj2 (index_owner s l) H1). cbn [bind]. rewrite (proj2 (IH r) H2). reflexivity.
Qed.
Lemma label_ok h : Forall (fun s => (s < lg_states g)%nat) h -> label_from_latent g h = Ok (map (owner (lg_counts g)) h).
Proof.
  intros H. unfold label_from_latent. induction H as [|s h H1 H2 IH]; [reflexivity|]. cbn [mapM map]. rewrite map_index by exact H1. cbn [bind]. rewrite IH. reflexivity.
Qed.
Lemma label_err h : ~ Forall (fun s => (s < lg_states g)%nat) h -> label_from_latent g h = Err IndexError.
Proof.
  intros H. unfold label_from_latent. induction h as [|s h IH]; [exfalso; apply H; constructor|]. cbn [mapM].
  destruct (Nat.lt_ge_cases s (lg_states g)) as [L|L]; [|rewrite map_index_out by exact L; reflexivity]. rewrite map_index by exact L. cbn [bind].
  rewrite IH; [reflexivity|]. intros F. apply H. constructor; assumption.
Qed.
End Laid.

(** ** kmeans_init *)
Lemma nth_map_lt {A B} (f : A -> B) l i d d' : (i < length l)%nat -> nth i (map f l) d = f (nth i l d').
Proof. revert i. induction l as [|a l IH]; intros i H; [cbn in H; lia|]. destruct i; [reflexivity|]. apply IH. cbn in H. lia. Qed.
Notation kstate := (list (list Qc) * list nat * list nat)%type (only parsing).
(** sample in the middle of the loop: the labels in [done] are explained *)
Definition kinv (counts done : list nat) (s : kstate) : Prop :=
  let '(f, y, h) := s in length f = length y /\ length h = length y /\
  forall i, (i < length y)%nat -> In (nth i y O) done -> in_block counts (nth i y O) (nth i h O).
Lemma combine3_nth {A B C} (f : list A) (y : list B) (h : list C) i a b c : length f = length y -> length h = length y -> (i < length y)%nat ->
  nth i (combine (combine f y) h) (a, b, c) = (nth i f a, nth i y b, nth i h c).
Proof. intros L1 L2 Hi. rewrite combine_nth by (rewrite combine_length; lia). rewrite combine_nth by lia. reflexivity. Qed.
Lemma kmeans_label_inv cluster counts label F F' done : clusters cluster -> kmeans_label cluster counts label F = Ok F' ->
  Forall (kinv counts done) F -> Forall (kinv counts (label :: done)) F' /\ map (fun s : kstate => snd (fst s)) F' = map (fun s => snd (fst s)) F.
Proof.
  intros HC E HF. unfold kmeans_label in E. apply bind_ok in E. destruct E as [k [E1 E]]. apply bind_ok in E. destruct E as [km [E2 E]].
  apply bind_ok in E. destruct E as [off [E3 E]]. injection E as <-. pose proof (HC _ _ _ _ E2) as HK.
  assert (HB : forall r, in_block counts label (km r + off)).
  { intros r. unfold index in E1, E3. destruct (nth_error counts label) eqn:N1; [|discriminate E1]. injection E1 as ->.
    assert (Hl : (label < length counts)%nat) by (apply nth_error_Some; congruence).
    assert (EO : off = offset counts label).
    { destruct label as [|l]; cbn [nth_error] in E3; [injection E3 as <-; reflexivity|].
      destruct (nth_error (np_cumsum counts) l) eqn:N2; [|discriminate E3]. injection E3 as <-. rewrite <- cumsum_nth by lia. symmetry. apply nth_error_nth. exact N2. }
    split; [exact Hl|]. rewrite offset_S by exact Hl. rewrite (nth_error_nth _ _ O N1). specialize (HK r). lia. }
  split.
  - apply Forall_map. apply Forall_impl with (2 := HF). intros [[f y] h] [L1 [L2 H]]. cbn [kinv]. split; [exact L1|].
    assert (LC : length (combine (combine f y) h) = length y) by (rewrite !combine_length; lia).
    split; [rewrite map_length; exact LC|]. intros i Hi Hin. match goal with |- in_block _ _ (nth i (map ?q _) O) => set (fn := q) end.
    rewrite (nth_map_lt fn _ i O ([], O, O)) by (rewrite LC; exact Hi). rewrite combine3_nth by assumption. unfold fn.
    destruct (Nat.eqb_spec (nth i y O) label) as [->|N]; [apply HB|]. apply H; [exact Hi|]. destruct Hin as [E|E]; [congruence|exact E].
  - rewrite map_map. apply map_ext. intros [[f y] h]. reflexivity.
Qed.
Lemma kmeans_loop_inv cluster counts : clusters cluster -> forall labels F F' done, kmeans_loop cluster counts labels F = Ok F' ->
  Forall (kinv counts done) F -> Forall (kinv counts (labels ++ done)) F' /\ map (fun s : kstate => snd (fst s)) F' = map (fun s => snd (fst s)) F.
Proof.
  intros HC. induction labels as [|l r IH]; intros F F' done E HF; cbn [kmeans_loop] in E.
  - injection E as <-. split; [exact HF|reflexivity].
  - apply bind_ok in E. destruct E as [F1 [E1 E]]. destruct (kmeans_label_inv _ _ _ _ _ _ HC E1 HF) as [A1 A2].
    destruct (IH _ _ _ E A1) as [B1 B2]. split; [|rewrite B2; exact A2]. apply Forall_impl with (2 := B1). intros [[f y] h] [L1 [L2 H]]. split; [exact L1|]. split; [exact L2|].
    intros i Hi Hin. apply H; [exact Hi|]. cbn [app] in Hin. apply in_or_app. destruct Hin as [E'|Hin]; [right; left; exact E'|].
    apply in_app_or in Hin. destruct Hin; [left|right; right]; assumption.
Qed.
Lemma neighbor_length nl sym x y e f : neighbor_features nl sym x y e = Ok f -> length f = length y /\ Forall (fun s => (s < nl)%nat) y /\ length y = mrows x.
Proof.
  unfold neighbor_features. intros E. apply bind_ok in E. destruct E as [[] [E1 E]]. apply bind_ok in E. destruct E as [oh [E2 E]].
  apply bind_ok in E. destruct E as [[] [E3 E]]. apply bind_ok in E. destruct E as [[] [E4 E]]. injection E as <-. apply ensure_ok in E1. apply Nat.eqb_eq in E1.
  rewrite map_length, seq_length. split; [auto|]. split; [|exact E1]. unfold one_hot in E2. destruct (forallb _ y) eqn:FB; [|discriminate E2].
  apply forallb_lt_Forall. exact FB.
Qed.
Lemma explains_nth counts : forall h y, length h = length y -> (forall i, (i < length y)%nat -> in_block counts (nth i y O) (nth i h O)) -> explains counts h y.
Proof.
  induction h as [|s h IH]; intros [|l y] L H; try discriminate L; [constructor|]. constructor; [exact (H 0%nat ltac:(cbn; lia))|].
  apply IH; [cbn in L; lia|]. intros i Hi. exact (H (S i) ltac:(cbn; lia)).
Qed.
Lemma explains_length counts h y : explains counts h y -> length h = length y.
Proof. intros H. induction H; cbn; congruence. Qed.
Lemma kmeans_consistent cluster nl counts sym S H : clusters cluster -> length counts = nl -> kmeans_init cluster nl counts sym S = Ok H ->
  Forall2 (fun s h => explains counts h (snd (fst s))) S H.
Proof.
  intros HC HL E. unfold kmeans_init in E. apply bind_ok in E. destruct E as [F [E1 E]]. apply bind_ok in E. destruct E as [[] [_ E]].
  apply bind_ok in E. destruct E as [F' [E2 E]]. injection E as <-.
  assert (A : Forall (kinv counts []) F /\ map (fun s : kstate => snd (fst s)) F = map (fun s => snd (fst s)) S /\
              Forall (fun s : kstate => Forall (fun l => (l < nl)%nat) (snd (fst s))) F).
  { clear E2. revert F E1. induction S as [|[[x y] e] S IH]; intros F E1; cbn [mapM] in E1.
    - injection E1 as <-. repeat split; constructor.
    - apply bind_ok in E1. destruct E1 as [t [E1 E2]]. apply bind_ok in E1. destruct E1 as [f [E0 E1]]. injection E1 as <-.
      apply bind_ok in E2. destruct E2 as [F0 [E2 E3]]. injection E3 as <-. destruct (IH _ E2) as [B1 [B2 B3]]. destruct (neighbor_length _ _ _ _ _ _ E0) as [N1 [N2 _]].
      split; [|split].
      + constructor; [|exact B1]. split; [exact N1|]. split; [apply repeat_length|]. intros i _ [].
      + cbn [map fst snd]. f_equal. exact B2.
      + constructor; [exact N2|exact B3]. }
  destruct A as [A1 [A2 A3]]. set (labels := filter _ _) in E2.
  destruct (kmeans_loop_inv cluster counts HC _ _ _ _ E2 A1) as [B1 B2].
  assert (HIn : forall s l, In s F -> In l (snd (fst s)) -> In l labels).
  { intros s l Hs Hl. unfold labels. apply filter_In. split.
    - rewrite Forall_forall in A3. pose proof (A3 s Hs) as Q. rewrite Forall_forall in Q. apply in_seq. specialize (Q l Hl). lia.
    - apply existsb_exists. exists l. split; [|apply Nat.eqb_refl]. apply in_concat. exists (snd (fst s)). split; [|exact Hl]. apply (in_map (fun s : kstate => snd (fst s))). exact Hs. }
  clearbody labels.
  assert (HF' : Forall (fun s : kstate => explains counts (snd s) (snd (fst s))) F').
  { apply Forall_forall. intros [[f y] h] Hs. rewrite Forall_forall in B1. destruct (B1 _ Hs) as [L1 [L2 Q]]. apply explains_nth; [exact L2|]. intros i Hi. cbn [fst snd] in *.
    apply Q; [exact Hi|]. apply in_or_app. left. assert (HM : In y (map (fun s : kstate => snd (fst s)) F)) by (rewrite <- B2; apply (in_map (fun s : kstate => snd (fst s)) F' (f, y, h)); exact Hs).
    apply in_map_iff in HM. destruct HM as [s0 [<- HS0]]. apply (HIn s0); [exact HS0|]. apply nth_In. exact Hi. }
  clear -HF' A2 B2. rewrite A2 in B2. clear A2.
  revert F' HF' B2. induction S as [|s S IH]; intros [|f' F'] HF' B; cbn [map] in B; try discriminate B; [constructor|].
  injection B as B0 B. apply Forall_cons_iff in HF'. destruct HF' as [H1 H2]. cbn [map]. constructor; [rewrite <- B0; exact H1|apply IH; assumption].
Qed.
Lemma kmeans_total cluster nl counts sym S w : length counts = nl -> S <> [] ->
  (forall label k rows, (label < nl)%nat -> exists km, cluster label k rows = Ok km) ->
  Forall (fun s => let '(x, y, e) := s in length y = mrows x /\ Forall (fun l => (l < nl)%nat) y /\ e <> [] /\
            (mcols x + (if sym : bool then 1 else 2) * nl * length e)%nat = w /\ Forall (graph_edges (mrows x)) e) S ->
  exists H, kmeans_init cluster nl counts sym S = Ok H.
Proof.
  intros HL HS HC HW. unfold kmeans_init.
  assert (A : exists F, mapM (fun s : mat * list nat * list (list (nat * nat)) => let '(x, y, edges) := s in
                           let! f := neighbor_features nl sym x y edges in Ok (f, y, repeat O (length y))) S = Ok F).
  { clear HS. induction S as [|[[x y] e] S IH]; [eexists; reflexivity|]. apply Forall_cons_iff in HW. destruct HW as [[W1 [W2 [W3 [_ W4]]]] HW]. cbn [mapM].
    destruct (IH HW) as [F EF]. rewrite EF.
    assert (N : exists f, neighbor_features nl sym x y e = Ok f).
    { unfold neighbor_features. rewrite W1, Nat.eqb_refl. cbn [ensure bind]. rewrite one_hot_ok by exact W2. cbn [bind].
      replace (forallb _ e) with true.
      2:{ symmetry. apply forallb_forall. intros ed Hed. apply forallb_forall. intros p Hp. rewrite Forall_forall in W4. specialize (W4 ed Hed). unfold graph_edges in W4.
          rewrite Forall_forall in W4. destruct (W4 p Hp) as [G1 G2]. apply Nat.ltb_lt in G1, G2. rewrite G1, G2. reflexivity. }
      cbn [ensure bind]. destruct e as [|e0 e]; [contradiction|]. destruct sym; cbn [map flat_map app length Nat.eqb negb ensure bind]; eexists; reflexivity. }
    destruct N as [f ->]. cbn [bind]. eexists. reflexivity. }
  destruct A as [F EF]. rewrite EF. cbn [bind].
  replace (match map _ S with [] => false | a :: r => forallb (Nat.eqb a) r end) with true.
  2:{ symmetry. destruct S as [|s S]; [contradiction|]. cbn [map]. apply forallb_forall. intros b Hb. apply in_map_iff in Hb. destruct Hb as [s' [<- Hs']].
      rewrite Forall_forall in HW. pose proof (HW s (or_introl eq_refl)) as Q1. pose proof (HW s' (or_intror Hs')) as Q2. destruct s as [[x y] e], s' as [[x' y'] e'].
      destruct Q1 as [_ [_ [_ [Q1 _]]]]. destruct Q2 as [_ [_ [_ [Q2 _]]]]. apply Nat.eqb_eq. congruence. }
  cbn [ensure bind]. set (labels := filter _ _). assert (HLb : Forall (fun l => (l < nl)%nat) labels).
  { apply Forall_forall. intros l Hl. apply filter_In in Hl. destruct Hl as [Hl _]. apply in_seq in Hl. lia. }
  clearbody labels. clear EF. revert F. induction HLb as [|l r H1 H2 IH]; intros F; [eexists; reflexivity|]. cbn [kmeans_loop].
  assert (K : exists F', kmeans_label cluster counts l F = Ok F').
  { unfold kmeans_label. rewrite (index_ok counts l O) by lia. cbn [bind]. destruct (HC l (nth l counts O) (concat (map (fun s : kstate => rows_of l (fst (fst s)) (snd (fst s))) F)) H1) as [km ->]. cbn [bind].
    rewrite (index_ok (O :: np_cumsum counts) l O) by (cbn [length]; unfold np_cumsum; rewrite cumsum_from_length; lia). cbn [bind]. eexists. reflexivity. }
  destruct K as [F' ->]. cbn [bind]. destruct (IH F') as [H EH]. exists H. exact EH.
Qed.

(** ** neighbour features *)
Lemma count_sum e n y i l : Forall (fun p => (snd p < n)%nat) e ->
  sumn n (fun j => count_edges e i j * ind (l =? nth j y O)%nat) = ofN (length (filter (fun p => (fst p =? i) && (lab y (snd p) =? l))%nat e)).
Proof.
  intros H. induction H as [|[a b] e H1 H2 IH]; [apply sumn_zero; intros j _; unfold count_edges; cbn [filter length]; rewrite ofN_0; ring|].
  transitivity (sumn n (fun j => ind (j =? b)%nat * (ind (a =? i)%nat * ind (l =? nth j y O)%nat)) + sumn n (fun j => count_edges e i j * ind (l =? nth j y O)%nat)).
  - rewrite <- sumn_plus. apply sumn_ext. intros j _. unfold count_edges. cbn [filter fst snd]. rewrite (Nat.eqb_sym j b).
    destruct (a =? i)%nat, (b =? j)%nat; cbn [andb length ind]; rewrite ?ofN_S; ring.
  - rewrite IH. rewrite sumn_pick by exact H1. cbn [filter fst snd]. unfold lab at 2. rewrite (Nat.eqb_sym l (nth b y O)).
    destruct (a =? i)%nat, (nth b y O =? l)%nat; cbn [andb length ind]; rewrite ?ofN_S; ring.
Qed.
Lemma count_flip e i j : count_edges e j i = count_edges (map (fun p => (snd p, fst p)) e) i j.
Proof.
  unfold count_edges. f_equal. induction e as [|[a b] e IH]; [reflexivity|]. cbn [map filter fst snd]. rewrite (andb_comm (b =? i)%nat).
  destruct ((a =? j) && (b =? i))%nat; cbn [length]; congruence.
Qed.
Lemma filter_flip e (P : nat -> nat -> bool) : length (filter (fun p => P (fst p) (snd p)) (map (fun p : nat * nat => (snd p, fst p)) e)) = length (filter (fun p => P (snd p) (fst p)) e).
Proof. induction e as [|[a b] e IH]; [reflexivity|]. cbn [map filter fst snd]. destruct (P b a); cbn [length]; congruence. Qed.
Lemma joined_sum e n y i l : graph_edges n e ->
  sumn n (fun j => (count_edges e i j + count_edges e j i) * ind (l =? nth j y O)%nat) = ofN (joined e y i l).
Proof.
  intros H. unfold joined. rewrite ofN_plus. rewrite <- (count_sum e n y i l) by (apply Forall_impl with (2 := H); intros p [_ Q]; exact Q).
  assert (F : graph_edges n (map (fun p => (snd p, fst p)) e)) by (apply Forall_map; apply Forall_impl with (2 := H); intros p [Q1 Q2]; split; assumption).
  rewrite <- (filter_flip e (fun a b => (a =? i) && (lab y b =? l))%nat).
  rewrite <- (count_sum (map (fun p => (snd p, fst p)) e) n y i l) by (apply Forall_impl with (2 := F); intros p [_ Q]; exact Q).
  rewrite <- sumn_plus. apply sumn_ext. intros j _. rewrite <- count_flip. ring.
Qed.
Lemma filter_labels (e : list (nat * nat)) (y : list nat) nl (A : nat * nat -> bool) (B : nat * nat -> nat) : (forall p, In p e -> (lab y (B p) < nl)%nat) ->
  sumn nl (fun l => ofN (length (filter (fun p => A p && (lab y (B p) =? l)%nat)%bool e))) = ofN (length (filter A e)).
Proof.
  induction e as [|p e IH]; intros H; [apply sumn_zero; intros; reflexivity|].
  transitivity (sumn nl (fun l => ind (l =? lab y (B p))%nat * ind (A p)) + sumn nl (fun l => ofN (length (filter (fun p => A p && (lab y (B p) =? l)%nat)%bool e)))).
  - rewrite <- sumn_plus. apply sumn_ext. intros l _. cbn [filter]. rewrite (Nat.eqb_sym l). destruct (A p), (lab y (B p) =? l)%nat; cbn [andb length ind]; rewrite ?ofN_S; ring.
  - rewrite IH by (intros q Hq; apply H; right; exact Hq). rewrite sumn_pick by (apply H; left; reflexivity). cbn [filter]. destruct (A p); cbn [length ind]; rewrite ?ofN_S; ring.
Qed.
Lemma joined_degree e n y nl i : graph_edges n e -> length y = n -> Forall (fun s => (s < nl)%nat) y -> sumn nl (fun l => ofN (joined e y i l)) = ofN (degree e i).
Proof.
  intros HE HL HY. assert (LT : forall j, (j < n)%nat -> (lab y j < nl)%nat).
  { intros j Hj. rewrite Forall_forall in HY. apply HY. apply nth_In. lia. }
  unfold graph_edges in HE. rewrite Forall_forall in HE.
  unfold joined, degree. rewrite ofN_plus. rewrite <- (filter_labels e y nl (fun p => fst p =? i)%nat snd) by (intros p Hp; apply LT, (HE p Hp)).
  rewrite <- (filter_labels e y nl (fun p => snd p =? i)%nat fst) by (intros p Hp; apply LT, (HE p Hp)). rewrite <- sumn_plus. apply sumn_ext. intros l _. rewrite ofN_plus. reflexivity.
Qed.
Lemma features_value nl x y e f i : neighbor_features nl true x y [e] = Ok f -> (i < mrows x)%nat ->
  nth i f [] = nth i (mdat x) [] ++ tab1 nl (fun l => ofN (joined e y i l) / Qcmax (ofN (degree e i)) 1).
Proof.
  intros E Hi. destruct (neighbor_length _ _ _ _ _ _ E) as [_ [HY HL]]. unfold neighbor_features in E. rewrite HL, Nat.eqb_refl in E. cbn [ensure bind] in E.
  rewrite one_hot_ok in E by exact HY. cbn [bind] in E. apply bind_ok in E. destruct E as [[] [E3 E]]. apply ensure_ok in E3.
  cbn [map length Nat.eqb negb ensure bind flat_map app] in E. injection E as <-.
  assert (HE : graph_edges (mrows x) e).
  { cbn [forallb] in E3. rewrite andb_true_r in E3. apply Forall_forall. intros p Hp. rewrite forallb_forall in E3. specialize (E3 p Hp). apply andb_true_iff in E3.
    destruct E3 as [G1 G2]. apply Nat.ltb_lt in G1, G2. auto. }
  match goal with |- nth i (map ?q _) [] = _ => set (fn := q) end. rewrite (nth_map_lt fn _ i [] O) by (rewrite seq_length; exact Hi). rewrite seq_nth by exact Hi. unfold fn. cbn [plus]. f_equal.
  assert (T : tab1 nl (fun l => sumn (mrows x) (fun j => (count_edges e i j + count_edges e j i) * mget (mtab (length y) nl (fun i0 s => ind (s =? nth i0 y 0)%nat)) j l))
            = tab1 nl (fun l => ofN (joined e y i l))).
  { unfold tab1. apply map_ext_in. intros l Hl. apply in_seq in Hl. rewrite <- (joined_sum e (mrows x) y i l HE). apply sumn_ext. intros j Hj. rewrite mget_mtab by lia. reflexivity. }
  rewrite app_nil_r, T. rewrite lsum_tab1, (joined_degree e (mrows x) y nl i HE HL HY). unfold tab1, vscale. rewrite map_map. apply map_ext. intros l. unfold Qcdiv. ring.
Qed.
