(** Proofs about expand_sym / compress_sym. *)
From Verif Require Import Model.Sym Proofs.Arrays.

Definition trinum (n : nat) : nat := (n * (n + 1) / 2)%nat.
Lemma trinum_S n : trinum (S n) = (trinum n + S n)%nat.
Proof.
  unfold trinum. replace (S n * (S n + 1))%nat with (n * (n + 1) + (S n) * 2)%nat by lia.
  rewrite Nat.div_add by lia. reflexivity.
Qed.
Lemma trinum_double n : (2 * trinum n = n * (n + 1))%nat.
Proof. induction n; [reflexivity|]. rewrite trinum_S. lia. Qed.

Lemma sym_size_trinum n : sym_size (trinum n) = n.
Proof.
  unfold sym_size. replace (8 * trinum n + 1)%nat with ((2 * n + 1) * (2 * n + 1))%nat
    by (assert (H := trinum_double n); lia).
  rewrite Nat.sqrt_square. replace (2 * n + 1 - 1)%nat with (n * 2)%nat by lia.
  apply Nat.div_mul. lia.
Qed.

(** Row-major enumeration of the lower triangle. *)
Lemma filter_le_seq i n k : (k <= i)%nat -> (i < k + n)%nat ->
  filter (fun j => (j <=? i)%nat) (seq k n) = seq k (S i - k).
Proof.
  revert k. induction n; intros k Hk Hi; [lia|]. cbn [seq filter].
  replace (k <=? i)%nat with true by (symmetry; apply Nat.leb_le; lia).
  destruct (Nat.eq_dec k i) as [->|Hne].
  - replace (S i - i)%nat with 1%nat by lia. simpl. f_equal.
    clear. assert (H : forall m, (i < m)%nat -> filter (fun j => (j <=? i)%nat) (seq m n) = []).
    { induction n; intros m Hm; auto. simpl. replace (m <=? i)%nat with false by (symmetry; apply Nat.leb_gt; lia). apply IHn. lia. }
    apply H. lia.
  - rewrite IHn by lia. replace (S i - k)%nat with (S (S i - S k)) by lia. reflexivity.
Qed.
Lemma tri_positions_rows n :
  tri_positions n = flat_map (fun i => map (pair i) (seq 0 (S i))) (seq 0 n).
Proof.
  unfold tri_positions.
  assert (H : forall l, (forall i, In i l -> (i < n)%nat) ->
    filter (fun ij => (snd ij <=? fst ij)%nat) (list_prod l (seq 0 n)) =
    flat_map (fun i => map (pair i) (seq 0 (S i))) l).
  { induction l as [|i l IH]; intro Hl; auto.
    cbn [list_prod]. rewrite filter_app, IH by (intros; apply Hl; simpl; auto).
    cbn [flat_map]. f_equal.
    change (seq 0 (S i)) with (seq 0 (S i - 0)).
    rewrite <- (filter_le_seq i n 0) by (specialize (Hl i (or_introl eq_refl)); lia).
    clear. induction (seq 0 n) as [|a s IH]; auto. simpl.
    destruct (a <=? i)%nat; simpl; rewrite IH; reflexivity. }
  apply H. intros i Hi. apply in_seq in Hi. lia.
Qed.
Lemma tri_positions_S n : tri_positions (S n) = tri_positions n ++ map (pair n) (seq 0 (S n)).
Proof.
  rewrite !tri_positions_rows. rewrite (seq_S n 0), flat_map_app at 1. cbn [flat_map]. rewrite app_nil_r. reflexivity.
Qed.
Lemma tri_positions_length n : length (tri_positions n) = trinum n.
Proof.
  induction n; [reflexivity|]. rewrite tri_positions_S, app_length, IHn, map_length, seq_length, trinum_S. reflexivity.
Qed.
Lemma tri_positions_nth n i j : (i < n)%nat -> (j <= i)%nat ->
  nth (trinum i + j) (tri_positions n) (0, 0)%nat = (i, j).
Proof.
  intros Hi Hj. induction n; [lia|]. rewrite tri_positions_S.
  destruct (Nat.eq_dec i n) as [->|Hne].
  - rewrite app_nth2; rewrite tri_positions_length; [|lia].
    replace (trinum n + j - trinum n)%nat with j by lia.
    rewrite (nth_indep _ (0,0)%nat (pair n O)) by (rewrite map_length, seq_length; lia).
    rewrite map_nth, seq_nth by lia. reflexivity.
  - rewrite app_nth1. apply IHn; lia. rewrite tri_positions_length.
    assert (H := trinum_S i).
    assert (M : forall a b, (a <= b)%nat -> (trinum a <= trinum b)%nat).
    { clear. intros a b. induction 1; [lia|]. rewrite trinum_S. lia. }
    specialize (M (S i) n). lia.
Qed.
Lemma tri_positions_in n i j : In (i, j) (tri_positions n) <-> (i < n /\ j <= i)%nat.
Proof.
  unfold tri_positions. rewrite filter_In, in_prod_iff, !in_seq. simpl. rewrite Nat.leb_le. lia.
Qed.
Lemma NoDup_app_intro {A} (l m : list A) : NoDup l -> NoDup m -> (forall x, In x l -> In x m -> False) -> NoDup (l ++ m).
Proof.
  intros Hl Hm Hd. induction Hl as [|a l Ha Hl IH]; auto. simpl. constructor.
  - rewrite in_app_iff. intros [H|H]; [contradiction|]. apply (Hd a); simpl; auto.
  - apply IH. intros x Hx. apply Hd. simpl; auto.
Qed.
Lemma NoDup_list_prod {A B} (l : list A) (m : list B) : NoDup l -> NoDup m -> NoDup (list_prod l m).
Proof.
  intros Hl Hm. induction Hl as [|a l Ha Hl IH]; [constructor|]. simpl.
  assert (Hmap : NoDup (map (fun b => (a, b)) m)).
  { clear - Hm. induction Hm; simpl; constructor; auto.
    intro H'. apply in_map_iff in H'. destruct H' as [b [E Hb]]. injection E as <-. contradiction. }
  apply NoDup_app_intro; auto. intros [x y] H1 H2.
  apply in_map_iff in H1. destruct H1 as [b [E _]]. injection E as <- <-.
  apply in_prod_iff in H2. tauto.
Qed.
Lemma tri_positions_nodup n : NoDup (tri_positions n).
Proof.
  unfold tri_positions. apply NoDup_filter. apply NoDup_list_prod; apply seq_NoDup.
Qed.

Lemma pos_eqb_spec p q : BoolSpec (p = q) (p <> q) (pos_eqb p q).
Proof.
  unfold pos_eqb. destruct p as [a b], q as [c d]; simpl.
  destruct (Nat.eqb_spec a c), (Nat.eqb_spec b d); simpl; constructor; congruence.
Qed.
Lemma mask_lookup_notin p pos v : ~ In p pos -> mask_lookup p (combine pos v) = 0.
Proof.
  revert v; induction pos as [|q pos IH]; intros [|x v] H; simpl; auto.
  destruct (pos_eqb_spec p q) as [->|N]; [exfalso; apply H; simpl; auto|].
  apply IH. intro. apply H; simpl; auto.
Qed.
Lemma mask_lookup_nth pos v k : NoDup pos -> length pos = length v -> (k < length pos)%nat ->
  mask_lookup (nth k pos (0,0)%nat) (combine pos v) = get1 v k.
Proof.
  intro ND. revert v k; induction ND as [|q pos Hq ND IH]; intros v k Hl Hk; simpl in *; [lia|].
  destruct v as [|x v]; [discriminate|]. simpl in *. destruct k as [|k].
  - destruct (pos_eqb_spec q q); [reflexivity|congruence].
  - destruct (pos_eqb_spec (nth k pos (0,0)%nat) q) as [E|N].
    + exfalso. apply Hq. rewrite <- E. apply nth_In. lia.
    + unfold get1. simpl. apply IH; lia.
Qed.

(** Sum of [f] over masked positions weighted with [v] = sum over the full grid. *)
Lemma dot_positions n f pos v :
  NoDup pos -> length v = length pos -> (forall p, In p pos -> fst p < n /\ snd p < n)%nat ->
  dot v (map f pos) =
  sumn n (fun i => sumn n (fun j => mask_lookup (i, j) (combine pos v) * f (i, j))).
Proof.
  intro ND. revert v. induction ND as [|q pos Hq ND IH]; intros v Hl Hr.
  - destruct v; [|discriminate]. simpl. rewrite dot_nil_l. symmetry.
    apply sumn_zero. intros. apply sumn_zero. intros. ring.
  - destruct v as [|x v]; [discriminate|]. simpl map. rewrite dot_cons.
    rewrite (IH v) by (auto; intros; apply Hr; simpl; auto).
    destruct q as [a b]. destruct (Hr (a, b)) as [Ha Hb]; [simpl; auto|]. simpl in Ha, Hb.
    transitivity (sumn n (fun i => sumn n (fun j => ind (i =? a)%nat * (ind (j =? b)%nat * (x * f (i, j))))) +
      sumn n (fun i => sumn n (fun j => mask_lookup (i, j) (combine pos v) * f (i, j)))).
    + f_equal. rewrite (sumn_ext n _ (fun i => ind (i =? a)%nat * (x * f (i, b)))).
      * rewrite sumn_pick by exact Ha. reflexivity.
      * intros i _. rewrite sumn_mult_l. rewrite sumn_pick by exact Hb. reflexivity.
    + rewrite <- sumn_plus. apply sumn_ext. intros i _. rewrite <- sumn_plus. apply sumn_ext. intros j _.
      simpl combine. simpl mask_lookup. destruct (pos_eqb_spec (i, j) (a, b)) as [E|N].
      * injection E as -> ->. rewrite !Nat.eqb_refl. rewrite mask_lookup_notin by exact Hq.
        unfold ind. ring.
      * destruct (Nat.eqb_spec i a), (Nat.eqb_spec j b); subst; try congruence; unfold ind; ring.
Qed.

(** The lower-triangular matrix filled by [sym[np.tri(size)] = v]. *)
Definition lower (v : list Qc) (i j : nat) : Qc := if (j <=? i)%nat then get1 v (trinum i + j) else 0.
Lemma mask_lookup_lower n v i j : length v = trinum n -> (i < n)%nat ->
  mask_lookup (i, j) (combine (tri_positions n) v) = lower v i j.
Proof.
  intros Hv Hi. unfold lower. destruct (Nat.leb_spec j i) as [L|L].
  - rewrite <- (tri_positions_nth n i j) by assumption.
    apply mask_lookup_nth. apply tri_positions_nodup. rewrite tri_positions_length; congruence.
    rewrite tri_positions_length.
    assert (M : forall a b, (a <= b)%nat -> (trinum a <= trinum b)%nat).
    { clear. intros a b. induction 1; [lia|]. rewrite trinum_S. lia. }
    assert (H := M (S i) n). rewrite trinum_S in H. lia.
  - apply mask_lookup_notin. rewrite tri_positions_in. lia.
Qed.

Definition sym_entry (v : list Qc) (i j : nat) : Qc :=
  if (j <=? i)%nat then get1 v (trinum i + j) else get1 v (trinum j + i).
Lemma sym_entry_sym v i j : sym_entry v i j = sym_entry v j i.
Proof.
  unfold sym_entry. destruct (Nat.leb_spec j i), (Nat.leb_spec i j); auto; try lia.
  assert (i = j) by lia. subst. reflexivity.
Qed.

Lemma expand_sym_ok n v : length v = trinum n -> exists m,
  expand_sym v = Ok m /\ mat_ok m /\ mrows m = n /\ mcols m = n /\
  (forall i j, (i < n)%nat -> (j < n)%nat -> mget m i j = sym_entry v i j).
Proof.
  intro Hv. unfold expand_sym. rewrite Hv, sym_size_trinum, tri_positions_length, Nat.eqb_refl.
  unfold mat_add, mat_sub, mat_same, bind. do 4 (simpl; rewrite ?Nat.eqb_refl).
  eexists. split; [reflexivity|]. split; [apply mtab_ok|]. simpl. split; auto. split; auto.
  intros i j Hi Hj.
  rewrite mget_mtab by assumption. rewrite mget_mtab by assumption.
  unfold mat_diagdiag. simpl. rewrite !mget_mtab by assumption.
  unfold mat_T; simpl. rewrite !mget_mtab by assumption.
  rewrite !(mask_lookup_lower n) by assumption. unfold lower, sym_entry.
  destruct (Nat.eqb_spec i j) as [->|N].
  - rewrite !Nat.leb_refl. ring.
  - destruct (Nat.leb_spec j i), (Nat.leb_spec i j); try lia; ring.
Qed.

Lemma compress_sym_true_ok n m : mrows m = n -> mcols m = n ->
  compress_sym m true = Ok (map (fun p => mget m (fst p) (snd p) + mget m (snd p) (fst p) -
     (if (fst p =? snd p)%nat then mget m (fst p) (fst p) else 0)) (tri_positions n)).
Proof.
  intros Hr Hc. unfold compress_sym, mat_add, mat_sub, mat_same, bind. do 5 (simpl; rewrite ?Hr, ?Hc, ?Nat.eqb_refl). f_equal. apply map_ext_in.
  intros [i j] H. apply tri_positions_in in H. simpl.
  assert (i < n /\ j < n)%nat as [Hi Hj] by lia.
  rewrite mget_mtab by assumption. rewrite mget_mtab by assumption.
  unfold mat_diagdiag. rewrite Hr, mget_mtab by assumption.
  unfold mat_T. rewrite Hr, Hc, mget_mtab by assumption. reflexivity.
Qed.
Lemma compress_sym_false_ok n m : mrows m = n -> mcols m = n ->
  compress_sym m false = Ok (map (fun p => mget m (fst p) (snd p)) (tri_positions n)).
Proof. intros Hr Hc. unfold compress_sym. simpl. rewrite Hr, Hc, Nat.eqb_refl. reflexivity. Qed.

(** compress_sym is the adjoint of expand_sym. *)
Lemma dot_compress n v (f : nat -> nat -> Qc) : length v = trinum n ->
  dot v (map (fun p => f (fst p) (snd p) + f (snd p) (fst p) -
     (if (fst p =? snd p)%nat then f (fst p) (fst p) else 0)) (tri_positions n)) =
  sumn n (fun i => sumn n (fun j => sym_entry v i j * f i j)).
Proof.
  intro Hv.
  rewrite (dot_positions n) by
    (try apply tri_positions_nodup; try (rewrite tri_positions_length; exact Hv);
     intros [i j] H; apply tri_positions_in in H; simpl; lia).
  simpl.
  transitivity (sumn n (fun i => sumn n (fun j => lower v i j * f i j)) +
                sumn n (fun i => sumn n (fun j => lower v i j * f j i)) -
                sumn n (fun i => sumn n (fun j => lower v i j * (if (i =? j)%nat then f i i else 0)))).
  { rewrite <- sumn_plus, <- sumn_minus. apply sumn_ext. intros i Hi.
    rewrite <- sumn_plus, <- sumn_minus. apply sumn_ext. intros j Hj.
    rewrite (mask_lookup_lower n) by assumption. ring. }
  rewrite (sumn_swap n n (fun i j => lower v i j * f j i)).
  rewrite <- sumn_plus, <- sumn_minus. apply sumn_ext. intros i Hi.
  rewrite <- sumn_plus, <- sumn_minus. apply sumn_ext. intros j Hj.
  unfold lower, sym_entry. destruct (Nat.eqb_spec i j) as [->|N].
  - rewrite !Nat.leb_refl. ring.
  - destruct (Nat.leb_spec j i), (Nat.leb_spec i j); try lia; ring.
Qed.

(** compress (without symmetrising) inverts expand, entry by entry *)
Lemma map_tri_get n v : length v = trinum n ->
  map (fun p => sym_entry v (fst p) (snd p)) (tri_positions n) = v.
Proof.
  intro Hv. apply vec_ext. rewrite map_length, tri_positions_length. auto.
  intros k Hk. rewrite map_length in Hk.
  transitivity (sym_entry v (fst (nth k (tri_positions n) (0,0)%nat)) (snd (nth k (tri_positions n) (0,0)%nat))).
  { unfold get1. rewrite (nth_indep _ 0 ((fun p => sym_entry v (fst p) (snd p)) (0,0)%nat)) by (rewrite map_length; exact Hk).
    rewrite (map_nth (fun p => sym_entry v (fst p) (snd p))). reflexivity. }
  assert (Hin := nth_In _ (0,0)%nat Hk). destruct (nth k (tri_positions n) (0,0)%nat) as [i j] eqn:E.
  apply tri_positions_in in Hin. simpl.
  unfold sym_entry. replace (j <=? i)%nat with true by (symmetry; apply Nat.leb_le; lia).
  assert (L := mask_lookup_nth (tri_positions n) v k (tri_positions_nodup n)).
  rewrite E in L. rewrite (mask_lookup_lower n) in L by (auto; lia).
  unfold lower in L. replace (j <=? i)%nat with true in L by (symmetry; apply Nat.leb_le; lia).
  apply L; [rewrite tri_positions_length; congruence|exact Hk].
Qed.

Lemma expand_sym_bad v : length v <> trinum (sym_size (length v)) -> expand_sym v = Err ValueError.
Proof.
  intro H. unfold expand_sym. rewrite tri_positions_length.
  destruct (Nat.eqb_spec (trinum (sym_size (length v))) (length v)); [congruence|reflexivity].
Qed.

(** length of a triangular array is the triangular number *)
Lemma expand_compress_symmetric n m : mat_ok m -> mrows m = n -> mcols m = n ->
  (forall i j, (i < n)%nat -> (j < n)%nat -> mget m i j = mget m j i) ->
  exists v, compress_sym m false = Ok v /\ length v = trinum n /\ expand_sym v = Ok m.
Proof.
  intros Hok Hr Hc Hs. rewrite (compress_sym_false_ok n) by assumption.
  eexists. split; [reflexivity|]. rewrite map_length, tri_positions_length. split; [reflexivity|].
  set (v := map (fun p => mget m (fst p) (snd p)) (tri_positions n)).
  destruct (expand_sym_ok n v) as [m' [E [O [R [C G]]]]].
  { unfold v. rewrite map_length, tri_positions_length. reflexivity. }
  rewrite E. f_equal. apply mat_eq_ext; auto; try congruence.
  intros i j Hi Hj. rewrite R in Hi. rewrite C in Hj. rewrite G by assumption.
  assert (A : forall a b, (a < n)%nat -> (b <= a)%nat -> get1 v (trinum a + b) = mget m a b).
  { intros a b Ha Hb. unfold v, get1.
    assert (L : (trinum a + b < length (tri_positions n))%nat).
    { rewrite tri_positions_length. clear - Ha Hb.
      assert (M : forall a b, (a <= b)%nat -> (trinum a <= trinum b)%nat).
      { intros x y. induction 1; [lia|]. rewrite trinum_S. lia. }
      specialize (M (S a) n). rewrite trinum_S in M. lia. }
    rewrite (nth_map_in _ _ _ (0,0)%nat) by exact L.
    rewrite tri_positions_nth by assumption. reflexivity. }
  unfold sym_entry. destruct (Nat.leb_spec j i).
  - apply A; lia.
  - rewrite Hs by assumption. apply A; lia.
Qed.

Lemma compress_expand_false n v : length v = trinum n ->
  exists m, expand_sym v = Ok m /\ compress_sym m false = Ok v.
Proof.
  intro Hv. destruct (expand_sym_ok n v Hv) as [m [E [O [R [C G]]]]]. exists m. split; auto.
  rewrite (compress_sym_false_ok n) by assumption. f_equal.
  transitivity (map (fun p => sym_entry v (fst p) (snd p)) (tri_positions n)); [|apply map_tri_get; exact Hv].
  apply map_ext_in. intros [i j] H. apply tri_positions_in in H.
  simpl. apply G; lia.
Qed.

Lemma compress_expand_true n v : length v = trinum n ->
  exists m v', expand_sym v = Ok m /\ compress_sym m true = Ok v' /\ length v' = length v /\
   forall i j, (i < n)%nat -> (j <= i)%nat ->
     get1 v' (trinum i + j) = if (i =? j)%nat then get1 v (trinum i + j) else get1 v (trinum i + j) + get1 v (trinum i + j).
Proof.
  intro Hv. destruct (expand_sym_ok n v Hv) as [m [E [O [R [C G]]]]].
  rewrite E. eexists. eexists. split; [reflexivity|]. rewrite (compress_sym_true_ok n) by assumption.
  split; [reflexivity|]. rewrite map_length, tri_positions_length. split; auto.
  intros i j Hi Hj. unfold get1 at 1.
  assert (L : (trinum i + j < length (tri_positions n))%nat).
  { rewrite tri_positions_length. 
    assert (M : forall a b, (a <= b)%nat -> (trinum a <= trinum b)%nat).
    { intros x y. induction 1; [lia|]. rewrite trinum_S. lia. }
    specialize (M (S i) n). rewrite trinum_S in M. lia. }
  rewrite (nth_map_in _ _ _ (0,0)%nat) by exact L.
  rewrite tri_positions_nth by assumption. simpl.
  rewrite !G by lia. unfold sym_entry. rewrite Nat.leb_refl.
  replace (j <=? i)%nat with true by (symmetry; apply Nat.leb_le; lia).
  destruct (Nat.eqb_spec i j) as [->|N].
  - rewrite Nat.leb_refl. ring.
  - replace (i <=? j)%nat with false by (symmetry; apply Nat.leb_gt; lia). ring.
Qed.

Lemma compress_adjoint n v m : length v = trinum n -> mrows m = n -> mcols m = n ->
  exists e c, expand_sym v = Ok e /\ compress_sym m true = Ok c /\ length c = length v /\
    dot v c = sumn n (fun i => sumn n (fun j => mget e i j * mget m i j)).
Proof.
  intros Hv Hr Hc. destruct (expand_sym_ok n v Hv) as [e [E [O [R [C G]]]]].
  rewrite (compress_sym_true_ok n) by assumption. exists e. eexists. split; auto. split; [reflexivity|].
  rewrite map_length, tri_positions_length. split; auto.
  rewrite (dot_compress n v (mget m)) by exact Hv.
  apply sumn_ext. intros i Hi. apply sumn_ext. intros j Hj. rewrite G by assumption. reflexivity.
Qed.
