From Verif Require Import Model.Grid Spec.GridSpec Proofs.Arrays.

(** ** closed form of the slices *)
Definition gtab {A} (n m : nat) (f : nat -> nat -> A) : list A :=
  concat (map (fun i => map (f i) (seq 0 m)) (seq 0 n)).

Lemma removelast_map_seq {A} (f : nat -> A) k n : removelast (map f (seq k n)) = map f (seq k (n - 1)).
Proof.
  revert k. induction n; intro k; [reflexivity|]. destruct n as [|n]; [reflexivity|].
  specialize (IHn (S k)). cbn [seq map removelast] in *. rewrite IHn.
  replace (S (S n) - 1)%nat with (S (S n - 1)) by lia. reflexivity.
Qed.
Lemma tl_map_seq {A} (f : nat -> A) n : tl (map f (seq 0 n)) = map (fun i => f (S i)) (seq 0 (n - 1)).
Proof.
  destruct n; [reflexivity|]. simpl tl. rewrite <- seq_shift, map_map. simpl. rewrite Nat.sub_0_r. reflexivity.
Qed.

Lemma combine_app {A B} (a1 a2 : list A) (b1 b2 : list B) : length a1 = length b1 ->
  combine (a1 ++ a2) (b1 ++ b2) = combine a1 b1 ++ combine a2 b2.
Proof.
  revert b1. induction a1; intros [|b b1] H; try discriminate H; [reflexivity|].
  simpl. f_equal. apply IHa1. simpl in H. lia.
Qed.
Lemma combine_map2 {A B C} (f : A -> B) (g : A -> C) l : combine (map f l) (map g l) = map (fun a => (f a, g a)) l.
Proof. induction l; simpl; congruence. Qed.
Lemma combine_gtab n m f g : combine (gtab n m f) (gtab n m g) = gtab n m (fun i j => (f i j, g i j)) :> list (nat * nat).
Proof.
  unfold gtab.
  enough (H : forall k, combine (concat (map (fun i => map (f i) (seq 0 m)) (seq k n)))
                (concat (map (fun i => map (g i) (seq 0 m)) (seq k n))) =
                concat (map (fun i => map (fun j => (f i j, g i j)) (seq 0 m)) (seq k n))) by apply H.
  induction n; intro k; [reflexivity|]. simpl.
  rewrite combine_app by (rewrite !map_length; reflexivity). rewrite IHn, combine_map2. reflexivity.
Qed.

Lemma in_gtab {A} n m (f : nat -> nat -> A) p : In p (gtab n m f) <-> exists i j, (i < n)%nat /\ (j < m)%nat /\ p = f i j.
Proof.
  unfold gtab. rewrite in_concat. split.
  - intros [l [H1 H2]]. apply in_map_iff in H1. destruct H1 as [i [<- Hi]]. apply in_map_iff in H2.
    destruct H2 as [j [<- Hj]]. apply in_seq in Hi, Hj. exists i, j. split; [lia|]. split; [lia|reflexivity].
  - intros [i [j [Hi [Hj ->]]]]. exists (map (f i) (seq 0 m)). split.
    + apply in_map_iff. exists i. split; [reflexivity|]. apply in_seq. lia.
    + apply in_map. apply in_seq. lia.
Qed.
Lemma gtab_length {A} n m (f : nat -> nat -> A) : length (gtab n m f) = (n * m)%nat.
Proof.
  unfold gtab. generalize 0%nat at 2. induction n; intro k; [reflexivity|]. simpl.
  rewrite app_length, map_length, seq_length, IHn. reflexivity.
Qed.
Lemma NoDup_app_intro {A} (a b : list A) : NoDup a -> NoDup b -> (forall x, In x a -> ~ In x b) -> NoDup (a ++ b).
Proof.
  intros Ha Hb H. induction Ha; simpl; [exact Hb|]. constructor.
  - rewrite in_app_iff. intros [K|K]; [contradiction|]. apply (H x); simpl; auto.
  - apply IHHa. intros y Hy. apply H. simpl; auto.
Qed.
Lemma NoDup_map_seq {A} (f : nat -> A) k n :
  (forall i j, (k <= i < k + n)%nat -> (k <= j < k + n)%nat -> f i = f j -> i = j) -> NoDup (map f (seq k n)).
Proof.
  revert k. induction n; intros k H; simpl; [constructor|]. constructor.
  - rewrite in_map_iff. intros [j [E Hj]]. apply in_seq in Hj. apply H in E; lia.
  - apply IHn. intros i j Hi Hj. apply H; lia.
Qed.
Lemma gtab_NoDup {A} n m (f : nat -> nat -> A) :
  (forall i j i' j', (j < m)%nat -> (j' < m)%nat -> f i j = f i' j' -> i = i' /\ j = j') -> NoDup (gtab n m f).
Proof.
  intro H. unfold gtab. generalize 0%nat at 2. induction n; intro k; simpl; [constructor|].
  apply NoDup_app_intro.
  - apply NoDup_map_seq. intros i j Hi Hj E. apply H in E; lia.
  - apply IHn.
  - intros x H1 H2. apply in_map_iff in H1. destruct H1 as [j [<- Hj]]. apply in_seq in Hj.
    apply in_concat in H2. destruct H2 as [l [H2 H3]]. apply in_map_iff in H2. destruct H2 as [i [<- Hi]].
    apply in_map_iff in H3. destruct H3 as [j' [E Hj']]. apply in_seq in Hi, Hj'. apply H in E; lia.
Qed.

Definition g_right (h w : nat) := gtab h (w - 1) (fun i j => (i * w + j, i * w + S j)%nat).
Definition g_down (h w : nat) := gtab (h - 1) w (fun i j => (i * w + j, S i * w + j)%nat).
Definition g_upright (h w : nat) := gtab (h - 1) (w - 1) (fun i j => (S i * w + j, i * w + S j)%nat).
Definition g_downright (h w : nat) := gtab (h - 1) (w - 1) (fun i j => (i * w + j, S i * w + S j)%nat).

Lemma rows_removelast h w f : map (@removelast nat) (map (fun i => map (fun j => f i j) (seq 0 w)) (seq 0 h)) =
  map (fun i => map (fun j => f i j) (seq 0 (w - 1))) (seq 0 h).
Proof. rewrite map_map. apply map_ext. intro i. apply removelast_map_seq. Qed.
Lemma rows_tl h w (f : nat -> nat -> nat) : map (@tl nat) (map (fun i => map (fun j => f i j) (seq 0 w)) (seq 0 h)) =
  map (fun i => map (fun j => f i (S j)) (seq 0 (w - 1))) (seq 0 h).
Proof. rewrite map_map. apply map_ext. intro i. apply (tl_map_seq (f i)). Qed.

Lemma grid_lists h w nb :
  make_grid_edge_lists h w nb =
    if (nb =? 4)%nat then Ok [g_right h w; g_down h w]
    else if (nb =? 8)%nat then Ok [g_right h w; g_down h w; g_upright h w; g_downright h w]
    else Err ValueError.
Proof.
  unfold make_grid_edge_lists, np_c_, grid_inds.
  assert (E1 := rows_removelast h w (fun i j => i * w + j)%nat).
  assert (E2 := rows_tl h w (fun i j => i * w + j)%nat).
  assert (E3 := removelast_map_seq (fun i => map (fun j => (i * w + j)%nat) (seq 0 w)) 0 h).
  assert (E4 := tl_map_seq (fun i => map (fun j => (i * w + j)%nat) (seq 0 w)) h).
  cbv beta in *. rewrite E1, E2, E3, E4.
  rewrite (rows_removelast (h - 1) w (fun i j => i * w + j)%nat).
  rewrite (rows_removelast (h - 1) w (fun i j => S i * w + j)%nat).
  rewrite (rows_tl (h - 1) w (fun i j => i * w + j)%nat).
  rewrite (rows_tl (h - 1) w (fun i j => S i * w + j)%nat).
  pose proof (combine_gtab h (w - 1) (fun i j => i * w + j) (fun i j => i * w + S j))%nat as C1.
  pose proof (combine_gtab (h - 1) w (fun i j => i * w + j) (fun i j => S i * w + j))%nat as C2.
  pose proof (combine_gtab (h - 1) (w - 1) (fun i j => S i * w + j) (fun i j => i * w + S j))%nat as C3.
  pose proof (combine_gtab (h - 1) (w - 1) (fun i j => i * w + j) (fun i j => S i * w + S j))%nat as C4.
  unfold gtab in C1, C2, C3, C4. rewrite C1, C2, C3, C4.
  destruct (Nat.eqb_spec nb 4) as [->|H4]; [reflexivity|].
  destruct (Nat.eqb_spec nb 8) as [->|H8]; reflexivity.
Qed.

(** ** membership in coordinates *)
Lemma dm i j w : (j < w)%nat -> ((i * w + j) / w = i /\ (i * w + j) mod w = j)%nat.
Proof.
  intro H. assert (w <> 0)%nat by lia. split.
  - rewrite Nat.div_add_l by assumption. rewrite Nat.div_small by exact H. lia.
  - rewrite Nat.add_comm, Nat.mod_add by assumption. apply Nat.mod_small, H.
Qed.
Lemma coord_lt h w a : (0 < w)%nat -> (a < h * w)%nat <-> (a / w < h)%nat.
Proof.
  intro H. split; intro K.
  - apply Nat.div_lt_upper_bound; lia.
  - rewrite (Nat.div_mod a w) by lia. assert (a mod w < w)%nat by (apply Nat.mod_upper_bound; lia). nia.
Qed.
Lemma coord_eq a w : (0 < w)%nat -> a = (a / w * w + a mod w)%nat.
Proof. intro. rewrite (Nat.div_mod a w) at 1 by lia. lia. Qed.

Ltac coords a b w := pose proof (Nat.mod_upper_bound a w ltac:(lia)); pose proof (Nat.mod_upper_bound b w ltac:(lia));
  pose proof (coord_eq a w ltac:(lia)); pose proof (coord_eq b w ltac:(lia)).

Lemma in_right h w a b : (a < h * w)%nat -> (b < h * w)%nat ->
  In (a, b) (g_right h w) <-> (b / w = a / w /\ b mod w = S (a mod w))%nat.
Proof.
  intros Ha Hb. assert (Hw : (0 < w)%nat) by nia. unfold g_right. rewrite in_gtab. split.
  - intros [i [j [Hi [Hj E]]]]. injection E as -> ->.
    destruct (dm i j w ltac:(lia)) as [-> ->]. destruct (dm i (S j) w ltac:(lia)) as [-> ->]. auto.
  - intros [E1 E2]. coords a b w. exists (a / w)%nat, (a mod w)%nat. apply coord_lt in Ha; [|exact Hw].
    split; [exact Ha|]. split; [lia|]. f_equal; congruence.
Qed.
Lemma in_down h w a b : (a < h * w)%nat -> (b < h * w)%nat ->
  In (a, b) (g_down h w) <-> (b / w = S (a / w) /\ b mod w = a mod w)%nat.
Proof.
  intros Ha Hb. assert (Hw : (0 < w)%nat) by nia. unfold g_down. rewrite in_gtab. split.
  - intros [i [j [Hi [Hj E]]]]. injection E as E1 E2.
    destruct (dm i j w ltac:(lia)) as [A B]. destruct (dm (S i) j w ltac:(lia)) as [C D].
    subst a. replace b with (S i * w + j)%nat by (simpl; lia). rewrite A, B, C, D. auto.
  - intros [E1 E2]. coords a b w. exists (a / w)%nat, (a mod w)%nat. apply coord_lt in Ha, Hb; try exact Hw.
    split; [lia|]. split; [lia|]. f_equal; [assumption|]. rewrite <- E1, <- E2. assumption.
Qed.
Lemma in_upright h w a b : (a < h * w)%nat -> (b < h * w)%nat ->
  In (a, b) (g_upright h w) <-> (a / w = S (b / w) /\ b mod w = S (a mod w))%nat.
Proof.
  intros Ha Hb. assert (Hw : (0 < w)%nat) by nia. unfold g_upright. rewrite in_gtab. split.
  - intros [i [j [Hi [Hj E]]]]. injection E as E1 E2.
    destruct (dm (S i) j w ltac:(lia)) as [A B]. destruct (dm i (S j) w ltac:(lia)) as [C D].
    subst b. replace a with (S i * w + j)%nat by (simpl; lia). rewrite A, B, C, D. auto.
  - intros [E1 E2]. coords a b w. exists (b / w)%nat, (a mod w)%nat. apply coord_lt in Ha, Hb; try exact Hw.
    split; [lia|]. split; [lia|]. rewrite <- E1, <- E2. f_equal; assumption.
Qed.
Lemma in_downright h w a b : (a < h * w)%nat -> (b < h * w)%nat ->
  In (a, b) (g_downright h w) <-> (b / w = S (a / w) /\ b mod w = S (a mod w))%nat.
Proof.
  intros Ha Hb. assert (Hw : (0 < w)%nat) by nia. unfold g_downright. rewrite in_gtab. split.
  - intros [i [j [Hi [Hj E]]]]. injection E as E1 E2.
    destruct (dm i j w ltac:(lia)) as [A B]. destruct (dm (S i) (S j) w ltac:(lia)) as [C D].
    subst a. replace b with (S i * w + S j)%nat by (simpl; lia). rewrite A, B, C, D. auto.
  - intros [E1 E2]. coords a b w. exists (a / w)%nat, (a mod w)%nat. apply coord_lt in Ha, Hb; try exact Hw.
    split; [lia|]. split; [lia|]. rewrite <- E1, <- E2. f_equal; assumption.
Qed.

Lemma cell_lt h w i j : (i < h)%nat -> (j < w)%nat -> (i * w + j < h * w)%nat.
Proof. nia. Qed.
Lemma range_right h w a b : In (a, b) (g_right h w) -> (a < h * w /\ b < h * w)%nat.
Proof. unfold g_right. rewrite in_gtab. intros [i [j [Hi [Hj E]]]]. injection E as -> ->. split; apply cell_lt; lia. Qed.
Lemma range_down h w a b : In (a, b) (g_down h w) -> (a < h * w /\ b < h * w)%nat.
Proof.
  unfold g_down. rewrite in_gtab. intros [i [j [Hi [Hj E]]]].
  assert (A := f_equal fst E). assert (B := f_equal snd E). cbn [fst snd] in A, B. rewrite A, B. split; apply cell_lt; lia.
Qed.
Lemma range_upright h w a b : In (a, b) (g_upright h w) -> (a < h * w /\ b < h * w)%nat.
Proof.
  unfold g_upright. rewrite in_gtab. intros [i [j [Hi [Hj E]]]].
  assert (A := f_equal fst E). assert (B := f_equal snd E). cbn [fst snd] in A, B. rewrite A, B. split; apply cell_lt; lia.
Qed.
Lemma range_downright h w a b : In (a, b) (g_downright h w) -> (a < h * w /\ b < h * w)%nat.
Proof.
  unfold g_downright. rewrite in_gtab. intros [i [j [Hi [Hj E]]]].
  assert (A := f_equal fst E). assert (B := f_equal snd E). cbn [fst snd] in A, B. rewrite A, B. split; apply cell_lt; lia.
Qed.

Lemma cell_inj w i j i' j' : (j < w)%nat -> (j' < w)%nat -> (i * w + j = i' * w + j')%nat -> i = i' /\ j = j'.
Proof.
  intros H H' E. destruct (dm i j w H) as [A B]. destruct (dm i' j' w H') as [A' B']. rewrite E in A, B. split; congruence.
Qed.
Lemma nodup_gen w n m (f g : nat -> nat -> nat) di dj : (m + dj <= w)%nat ->
  (forall i j, f i j = ((i + di) * w + (j + dj))%nat) -> NoDup (gtab n m (fun i j => (f i j, g i j))).
Proof.
  intros Hm Hf. apply gtab_NoDup. intros i j i' j' Hj Hj' E. injection E as E _.
  rewrite !Hf in E. apply cell_inj in E; lia.
Qed.
Lemma nodup_right h w : NoDup (g_right h w).
Proof. apply (nodup_gen w h (w - 1) (fun i j => i * w + j)%nat (fun i j => i * w + S j)%nat 0 0); [lia|]. intros. f_equal; lia. Qed.
Lemma nodup_down h w : NoDup (g_down h w).
Proof. apply (nodup_gen w (h - 1) w (fun i j => i * w + j)%nat (fun i j => S i * w + j)%nat 0 0); [lia|]. intros. f_equal; lia. Qed.
Lemma nodup_upright h w : NoDup (g_upright h w).
Proof.
  apply (nodup_gen w (h - 1) (w - 1) (fun i j => S i * w + j)%nat (fun i j => i * w + S j)%nat 1 0); [lia|].
  intros i j. replace (i + 1)%nat with (S i) by lia. lia.
Qed.
Lemma nodup_downright h w : NoDup (g_downright h w).
Proof. apply (nodup_gen w (h - 1) (w - 1) (fun i j => i * w + j)%nat (fun i j => S i * w + S j)%nat 0 0); [lia|]. intros. f_equal; lia. Qed.

Ltac in_coords := repeat match goal with
  | H : In (_, _) (g_right _ _) |- _ => let K := fresh in assert (K := range_right _ _ _ _ H); destruct K; apply in_right in H; try assumption
  | H : In (_, _) (g_down _ _) |- _ => let K := fresh in assert (K := range_down _ _ _ _ H); destruct K; apply in_down in H; try assumption
  | H : In (_, _) (g_upright _ _) |- _ => let K := fresh in assert (K := range_upright _ _ _ _ H); destruct K; apply in_upright in H; try assumption
  | H : In (_, _) (g_downright _ _) |- _ => let K := fresh in assert (K := range_downright _ _ _ _ H); destruct K; apply in_downright in H; try assumption
  end.

(** ** the theorems *)
Lemma grid_edges_4 h w : exists es, make_grid_edges h w 4 = Ok es /\
  NoDup es /\ graph_edges (h * w) es /\
  length es = (h * (w - 1) + (h - 1) * w)%nat /\
  (forall a b, (a < h * w)%nat -> (b < h * w)%nat -> adjacent4 w a b <-> In (a, b) es \/ In (b, a) es) /\
  (forall a b, In (a, b) es -> ~ In (b, a) es).
Proof.
  exists (g_right h w ++ g_down h w).
  split; [unfold make_grid_edges; rewrite grid_lists; simpl; rewrite app_nil_r; reflexivity|].
  split; [|split; [|split; [|split]]].
  - apply NoDup_app_intro; [apply nodup_right|apply nodup_down|]. intros [a b] H1 H2. in_coords. lia.
  - apply Forall_forall. intros [a b] H. apply in_app_iff in H. simpl. destruct H as [H|H]; in_coords; split; assumption.
  - rewrite app_length. unfold g_right, g_down. rewrite !gtab_length. reflexivity.
  - intros a b Ha Hb. rewrite !in_app_iff, !in_right, !in_down by assumption.
    unfold adjacent4, row_dist, col_dist, dist. lia.
  - intros a b. rewrite !in_app_iff. intros [H|H] [K|K]; in_coords; lia.
Qed.
Lemma grid_edges_8 h w : exists es, make_grid_edges h w 8 = Ok es /\
  NoDup es /\ graph_edges (h * w) es /\
  length es = (h * (w - 1) + (h - 1) * w + 2 * ((h - 1) * (w - 1)))%nat /\
  (forall a b, (a < h * w)%nat -> (b < h * w)%nat -> adjacent8 w a b <-> In (a, b) es \/ In (b, a) es) /\
  (forall a b, In (a, b) es -> ~ In (b, a) es).
Proof.
  exists (g_right h w ++ g_down h w ++ g_upright h w ++ g_downright h w).
  split; [unfold make_grid_edges; rewrite grid_lists; simpl; rewrite app_nil_r; reflexivity|].
  split; [|split; [|split; [|split]]].
  - repeat (apply NoDup_app_intro); try apply nodup_right; try apply nodup_down; try apply nodup_upright;
      try apply nodup_downright; intros [a b] H1 H2; rewrite ?in_app_iff in *.
    + in_coords. lia.
    + destruct H2 as [H2|H2]; in_coords; lia.
    + destruct H2 as [H2|[H2|H2]]; in_coords; lia.
  - apply Forall_forall. intros [a b] H. rewrite !in_app_iff in H. simpl. destruct H as [H|[H|[H|H]]]; in_coords; split; assumption.
  - rewrite !app_length. unfold g_right, g_down, g_upright, g_downright. rewrite !gtab_length. lia.
  - intros a b Ha Hb. rewrite !in_app_iff, !in_right, !in_down, !in_upright, !in_downright by assumption.
    unfold adjacent8, row_dist, col_dist, dist. lia.
  - intros a b. rewrite !in_app_iff. intros [H|[H|[H|H]]] [K|[K|[K|K]]]; in_coords; lia.
Qed.
Lemma grid_edges_other h w nb : nb <> 4%nat -> nb <> 8%nat ->
  make_grid_edges h w nb = Err ValueError /\ make_grid_edge_lists h w nb = Err ValueError.
Proof.
  intros H4 H8. apply Nat.eqb_neq in H4, H8. unfold make_grid_edges. rewrite grid_lists, H4, H8. split; reflexivity.
Qed.
