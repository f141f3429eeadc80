(** Finite sums, vectors and matrices of rationals (generic; nothing about pystruct). *)
From Verif Require Export Base.QcBase.
From Coq Require Import Permutation.

(** Sum of [f 0 .. f (n-1)]. *)
Fixpoint sumn (n : nat) (f : nat -> Qc) : Qc :=
  match n with
  | O => 0
  | S k => sumn k f + f k
  end.

(** Sum of a list. *)
Fixpoint lsum (l : list Qc) : Qc :=
  match l with
  | [] => 0
  | x :: r => x + lsum r
  end.

Fixpoint zipw {A B C} (f : A -> B -> C) (l1 : list A) (l2 : list B) : list C :=
  match l1, l2 with
  | a :: r1, b :: r2 => f a b :: zipw f r1 r2
  | _, _ => []
  end.

Definition dot (a b : list Qc) : Qc := lsum (zipw Qcmult a b).
Definition vadd (a b : list Qc) : list Qc := zipw Qcplus a b.
Definition vsub (a b : list Qc) : list Qc := zipw Qcminus a b.
Definition vscale (c : Qc) (a : list Qc) : list Qc := map (Qcmult c) a.
Definition vzero (n : nat) : list Qc := repeat 0 n.
Definition normsq (a : list Qc) : Qc := dot a a.

(** Element access; the defaults are only reached outside the bounds. *)
Definition get1 (l : list Qc) (i : nat) : Qc := nth i l 0.
Definition get2 (a : list (list Qc)) (i j : nat) : Qc := nth j (nth i a []) 0.

(** The matrix with entries [f i j]. *)
Definition tab1 (n : nat) (f : nat -> Qc) : list Qc := map f (seq 0 n).
Definition tab2 (n m : nat) (f : nat -> nat -> Qc) : list (list Qc) :=
  map (fun i => tab1 m (f i)) (seq 0 n).

Definition ind (b : bool) : Qc := if b then 1 else 0.

(** * [sumn] *)
Lemma sumn_ext n f g : (forall i, (i < n)%nat -> f i = g i) -> sumn n f = sumn n g.
Proof.
  induction n; simpl; intros H; auto.
  rewrite IHn by (intros; apply H; lia). rewrite H by lia. reflexivity.
Qed.
Lemma sumn_0 n : sumn n (fun _ => 0) = 0.
Proof. induction n; simpl; auto. rewrite IHn. ring. Qed.
Lemma sumn_zero n f : (forall i, (i < n)%nat -> f i = 0) -> sumn n f = 0.
Proof. intro H. rewrite <- (sumn_0 n). apply sumn_ext. exact H. Qed.
Lemma sumn_plus n f g : sumn n (fun i => f i + g i) = sumn n f + sumn n g.
Proof. induction n; simpl. ring. rewrite IHn. ring. Qed.
Lemma sumn_minus n f g : sumn n (fun i => f i - g i) = sumn n f - sumn n g.
Proof. induction n; simpl. ring. rewrite IHn. ring. Qed.
Lemma sumn_mult_l n c f : sumn n (fun i => c * f i) = c * sumn n f.
Proof. induction n; simpl. ring. rewrite IHn. ring. Qed.
Lemma sumn_mult_r n c f : sumn n (fun i => f i * c) = sumn n f * c.
Proof. induction n; simpl. ring. rewrite IHn. ring. Qed.
Lemma sumn_opp n f : sumn n (fun i => - f i) = - sumn n f.
Proof. induction n; simpl. ring. rewrite IHn. ring. Qed.
Lemma sumn_swap n m f :
  sumn n (fun i => sumn m (fun j => f i j)) = sumn m (fun j => sumn n (fun i => f i j)).
Proof.
  induction n; simpl.
  - rewrite sumn_0. reflexivity.
  - rewrite IHn, sumn_plus. reflexivity.
Qed.
Lemma sumn_const n c : sumn n (fun _ => c) = ofN n * c.
Proof.
  induction n; simpl. rewrite ofN_0; ring. rewrite IHn, ofN_S. ring.
Qed.
Lemma sumn_split n m f : sumn (n + m) f = sumn n f + sumn m (fun i => f (n + i)%nat).
Proof.
  induction m; simpl.
  - rewrite Nat.add_0_r. ring.
  - rewrite Nat.add_succ_r. simpl. rewrite IHm. ring.
Qed.
Lemma sumn_S_l n f : sumn (S n) f = f O + sumn n (fun i => f (S i)).
Proof.
  change (S n) with (1 + n)%nat. rewrite sumn_split. simpl. ring.
Qed.
(** Picking one term out of a sum. *)
Lemma sumn_pick n k f : (k < n)%nat -> sumn n (fun i => ind (i =? k)%nat * f i) = f k.
Proof.
  induction n; intro H; [lia|]. simpl.
  destruct (Nat.eq_dec k n) as [->|Hne].
  - rewrite Nat.eqb_refl. rewrite sumn_zero.
    + unfold ind. ring.
    + intros i Hi. destruct (Nat.eqb_spec i n); [lia|]. unfold ind. ring.
  - rewrite IHn by lia. destruct (Nat.eqb_spec n k); [lia|]. unfold ind. ring.
Qed.
Lemma sumn_pick' n k f : (k < n)%nat -> sumn n (fun i => ind (k =? i)%nat * f i) = f k.
Proof.
  intro H. rewrite <- (sumn_pick n k f H). apply sumn_ext. intros i _.
  rewrite Nat.eqb_sym. reflexivity.
Qed.
Lemma sumn_pick_out n k f : (n <= k)%nat -> sumn n (fun i => ind (i =? k)%nat * f i) = 0.
Proof.
  intro H. apply sumn_zero. intros i Hi. destruct (Nat.eqb_spec i k); [lia|]. unfold ind; ring.
Qed.
Lemma sumn_nonneg n f : (forall i, (i < n)%nat -> 0 <= f i) -> 0 <= sumn n f.
Proof.
  induction n; simpl; intro H. apply Qcle_refl.
  assert (0 <= sumn n f) by (apply IHn; intros; apply H; lia).
  assert (0 <= f n) by (apply H; lia). qclra.
Qed.
Lemma sumn_le n f g : (forall i, (i < n)%nat -> f i <= g i) -> sumn n f <= sumn n g.
Proof.
  induction n; simpl; intro H. apply Qcle_refl.
  assert (sumn n f <= sumn n g) by (apply IHn; intros; apply H; lia).
  assert (f n <= g n) by (apply H; lia). qclra.
Qed.
Lemma sumn_term_le n f k : (forall i, (i < n)%nat -> 0 <= f i) -> (k < n)%nat -> f k <= sumn n f.
Proof.
  induction n; simpl; intros H Hk; [lia|].
  assert (Hs : 0 <= sumn n f) by (apply sumn_nonneg; intros; apply H; lia).
  assert (Hn : 0 <= f n) by (apply H; lia).
  destruct (Nat.eq_dec k n) as [->|Hne]; [qclra|].
  assert (f k <= sumn n f) by (apply IHn; [intros; apply H; lia|lia]). qclra.
Qed.
Lemma sumn_eq0 n f : (forall i, (i < n)%nat -> 0 <= f i) -> sumn n f = 0 ->
  forall i, (i < n)%nat -> f i = 0.
Proof.
  intros H E i Hi. apply Qcle_antisym; [|apply H; exact Hi].
  rewrite <- E. apply sumn_term_le; auto.
Qed.
Lemma sumn_mul n m f :
  sumn (n * m) f = sumn n (fun i => sumn m (fun j => f (i * m + j)%nat)).
Proof.
  induction n; simpl; auto.
  rewrite Nat.add_comm, sumn_split, IHn. reflexivity.
Qed.

(** * [lsum] *)
Lemma lsum_app a b : lsum (a ++ b) = lsum a + lsum b.
Proof. induction a; simpl; try rewrite IHa; ring. Qed.
Lemma lsum_map_plus {A} (f g : A -> Qc) l :
  lsum (map (fun x => f x + g x) l) = lsum (map f l) + lsum (map g l).
Proof. induction l; simpl; try rewrite IHl; ring. Qed.
Lemma lsum_map_mult_l {A} c (f : A -> Qc) l :
  lsum (map (fun x => c * f x) l) = c * lsum (map f l).
Proof. induction l; simpl; try rewrite IHl; ring. Qed.
Lemma lsum_map_ext {A} (f g : A -> Qc) l :
  (forall x, In x l -> f x = g x) -> lsum (map f l) = lsum (map g l).
Proof. intro H. f_equal. apply map_ext_in. exact H. Qed.
Lemma lsum_map_0 {A} (l : list A) : lsum (map (fun _ => 0) l) = 0.
Proof. induction l; simpl; try rewrite IHl; ring. Qed.
Lemma lsum_nonneg l : (forall x, In x l -> 0 <= x) -> 0 <= lsum l.
Proof.
  induction l; simpl; intro H. apply Qcle_refl.
  assert (0 <= a) by (apply H; auto).
  assert (0 <= lsum l) by (apply IHl; intros; apply H; auto). qclra.
Qed.
Lemma lsum_map_le {A} (f g : A -> Qc) l :
  (forall x, In x l -> f x <= g x) -> lsum (map f l) <= lsum (map g l).
Proof.
  induction l; simpl; intro H. apply Qcle_refl.
  assert (f a <= g a) by (apply H; auto).
  assert (lsum (map f l) <= lsum (map g l)) by (apply IHl; intros; apply H; auto). qclra.
Qed.
Lemma lsum_perm a b : Permutation a b -> lsum a = lsum b.
Proof.
  induction 1; simpl; auto.
  - congruence.
  - ring.
  - congruence.
Qed.
Lemma lsum_tab1 n f : lsum (tab1 n f) = sumn n f.
Proof.
  unfold tab1. induction n; auto.
  rewrite seq_S, map_app, lsum_app, IHn. simpl. ring.
Qed.
Lemma lsum_get l : lsum l = sumn (length l) (get1 l).
Proof.
  induction l; auto. simpl length. rewrite sumn_S_l. simpl. rewrite IHl. reflexivity.
Qed.
Lemma lsum_map_sumn {A} (d : A) (f : A -> Qc) l :
  lsum (map f l) = sumn (length l) (fun i => f (nth i l d)).
Proof.
  induction l; auto. simpl length. rewrite sumn_S_l. simpl. rewrite IHl. reflexivity.
Qed.
Lemma lsum_swap {A} (l : list A) n (f : A -> nat -> Qc) :
  lsum (map (fun x => sumn n (f x)) l) = sumn n (fun i => lsum (map (fun x => f x i) l)).
Proof.
  induction l; simpl.
  - rewrite sumn_0. reflexivity.
  - rewrite IHl, sumn_plus. reflexivity.
Qed.
Lemma lsum_repeat n c : lsum (repeat c n) = ofN n * c.
Proof. induction n; simpl. rewrite ofN_0; ring. rewrite IHn, ofN_S; ring. Qed.

(** * [zipw] *)
Lemma zipw_length {A B C} (f : A -> B -> C) l1 l2 :
  length l1 = length l2 -> length (zipw f l1 l2) = length l1.
Proof. revert l2; induction l1; destruct l2; simpl; intros; try discriminate; auto. Qed.
Lemma zipw_length_min {A B C} (f : A -> B -> C) l1 l2 :
  length (zipw f l1 l2) = Nat.min (length l1) (length l2).
Proof. revert l2; induction l1; destruct l2; simpl; intros; auto. Qed.
Lemma zipw_nth {A B C} (f : A -> B -> C) l1 l2 i da db dc :
  length l1 = length l2 -> (i < length l1)%nat ->
  nth i (zipw f l1 l2) dc = f (nth i l1 da) (nth i l2 db).
Proof.
  revert l2 i; induction l1; destruct l2; simpl; intros i Hl Hi; try discriminate; try lia.
  destruct i; auto. apply IHl1; lia.
Qed.
Lemma zipw_map_seq {A B C} (f : A -> B -> C) (g : nat -> A) (h : nat -> B) n k :
  zipw f (map g (seq k n)) (map h (seq k n)) = map (fun i => f (g i) (h i)) (seq k n).
Proof. revert k; induction n; simpl; intros; f_equal; auto. Qed.
Lemma zipw_app {A B C} (f : A -> B -> C) a1 a2 b1 b2 :
  length a1 = length b1 -> zipw f (a1 ++ a2) (b1 ++ b2) = zipw f a1 b1 ++ zipw f a2 b2.
Proof.
  revert b1; induction a1; destruct b1; simpl; intros; try discriminate; auto.
  f_equal. apply IHa1. lia.
Qed.

(** * [dot] *)
Lemma dot_nil_l b : dot [] b = 0.
Proof. reflexivity. Qed.
Lemma dot_nil_r a : dot a [] = 0.
Proof. destruct a; reflexivity. Qed.
Lemma dot_cons a u b v : dot (a :: u) (b :: v) = a * b + dot u v.
Proof. reflexivity. Qed.
Lemma dot_app a1 a2 b1 b2 :
  length a1 = length b1 -> dot (a1 ++ a2) (b1 ++ b2) = dot a1 b1 + dot a2 b2.
Proof. intro H. unfold dot. rewrite zipw_app by exact H. apply lsum_app. Qed.
Lemma dot_get a b : length a = length b -> dot a b = sumn (length a) (fun i => get1 a i * get1 b i).
Proof.
  revert b; induction a; destruct b; intro H; try discriminate; auto.
  simpl length. rewrite sumn_S_l, dot_cons, IHa by (simpl in H; lia). reflexivity.
Qed.
Lemma dot_comm a b : dot a b = dot b a.
Proof. revert b; induction a; destruct b; try reflexivity. rewrite !dot_cons, IHa. ring. Qed.
Lemma vadd_cons a u b v : vadd (a :: u) (b :: v) = (a + b) :: vadd u v.
Proof. reflexivity. Qed.
Lemma vsub_cons a u b v : vsub (a :: u) (b :: v) = (a - b) :: vsub u v.
Proof. reflexivity. Qed.
Lemma vscale_cons k a u : vscale k (a :: u) = (k * a) :: vscale k u.
Proof. reflexivity. Qed.
Lemma dot_vadd_l a b c : length a = length b -> dot (vadd a b) c = dot a c + dot b c.
Proof.
  revert b c; induction a; destruct b; intros c H; try discriminate.
  - simpl. rewrite !dot_nil_l. ring.
  - destruct c. rewrite !dot_nil_r. ring.
    rewrite vadd_cons, !dot_cons. rewrite IHa by (simpl in H; lia). ring.
Qed.
Lemma dot_vadd_r a b c : length a = length b -> dot c (vadd a b) = dot c a + dot c b.
Proof. intro. rewrite dot_comm, dot_vadd_l, !(dot_comm c) by assumption. reflexivity. Qed.
Lemma dot_vsub_l a b c : length a = length b -> dot (vsub a b) c = dot a c - dot b c.
Proof.
  revert b c; induction a; destruct b; intros c H; try discriminate.
  - simpl. rewrite !dot_nil_l. ring.
  - destruct c. rewrite !dot_nil_r. ring.
    rewrite vsub_cons, !dot_cons. rewrite IHa by (simpl in H; lia). ring.
Qed.
Lemma dot_vsub_r a b c : length a = length b -> dot c (vsub a b) = dot c a - dot c b.
Proof. intro. rewrite dot_comm, dot_vsub_l, !(dot_comm c) by assumption. reflexivity. Qed.
Lemma dot_vscale_l k a b : dot (vscale k a) b = k * dot a b.
Proof.
  revert b; induction a; intro b.
  - simpl. rewrite !dot_nil_l. ring.
  - destruct b. rewrite !dot_nil_r. ring.
    rewrite vscale_cons, !dot_cons. rewrite IHa. ring.
Qed.
Lemma dot_vscale_r k a b : dot a (vscale k b) = k * dot a b.
Proof. rewrite dot_comm, dot_vscale_l, dot_comm. reflexivity. Qed.
Lemma dot_vzero_l n a : dot (vzero n) a = 0.
Proof.
  revert a; induction n; intro a. apply dot_nil_l.
  destruct a. apply dot_nil_r. change (vzero (S n)) with (0 :: vzero n). rewrite dot_cons, IHn. ring.
Qed.
Lemma dot_vzero_r n a : dot a (vzero n) = 0.
Proof. rewrite dot_comm. apply dot_vzero_l. Qed.
Lemma normsq_nonneg a : 0 <= normsq a.
Proof.
  induction a. apply Qcle_refl. unfold normsq in *. rewrite dot_cons.
  assert (0 <= a * a) by apply Qc_sq_nonneg. qclra.
Qed.
Lemma vadd_length a b : length a = length b -> length (vadd a b) = length a.
Proof. apply zipw_length. Qed.
Lemma vsub_length a b : length a = length b -> length (vsub a b) = length a.
Proof. apply zipw_length. Qed.
Lemma vscale_length k a : length (vscale k a) = length a.
Proof. apply map_length. Qed.
Lemma vzero_length n : length (vzero n) = n.
Proof. apply repeat_length. Qed.
Lemma get1_vadd a b i : length a = length b -> get1 (vadd a b) i = get1 a i + get1 b i.
Proof.
  unfold get1, vadd. revert b i; induction a; destruct b; intros i H; try discriminate.
  - destruct i; simpl; ring.
  - destruct i; simpl; auto.
Qed.
Lemma get1_vsub a b i : length a = length b -> get1 (vsub a b) i = get1 a i - get1 b i.
Proof.
  unfold get1, vsub. revert b i; induction a; destruct b; intros i H; try discriminate.
  - destruct i; simpl; ring.
  - destruct i; simpl; auto.
Qed.
Lemma get1_vscale k a i : get1 (vscale k a) i = k * get1 a i.
Proof.
  unfold get1, vscale. revert i; induction a; destruct i; simpl; auto; ring.
Qed.
Lemma get1_vzero n i : get1 (vzero n) i = 0.
Proof. unfold get1, vzero. revert i; induction n; destruct i; simpl; auto. Qed.
(** Vector equality by entries. *)
Lemma vec_ext a b : length a = length b -> (forall i, (i < length a)%nat -> get1 a i = get1 b i) -> a = b.
Proof.
  intros Hl H. apply (nth_ext a b 0 0 Hl). exact H.
Qed.
(** Cauchy-Schwarz. *)
Lemma cauchy_schwarz a b : length a = length b -> dot a b * dot a b <= normsq a * normsq b.
Proof.
  intro Hl.
  destruct (Qclt_le_dec 0 (normsq b)) as [Hb|Hb].
  - set (t := dot a b).
    assert (H := normsq_nonneg (vsub (vscale (normsq b) a) (vscale t b))).
    unfold normsq in H at 1.
    rewrite dot_vsub_l in H by (rewrite !vscale_length; exact Hl).
    rewrite !dot_vsub_r in H by (rewrite !vscale_length; exact Hl).
    rewrite !dot_vscale_l, !dot_vscale_r in H.
    rewrite (dot_comm b a) in H. fold t in H. fold (normsq a) in H. fold (normsq b) in H.
    set (na := normsq a) in *. set (nb := normsq b) in *. clearbody t na nb.
    assert (E : nb * (nb * na) - t * (nb * t) - (nb * (t * t) - t * (t * nb)) = nb * (na * nb - t * t)) by ring.
    destruct (Qclt_le_dec (na * nb) (t * t)) as [L|L]; auto. exfalso.
    assert (0 < nb * (t * t - na * nb)) by (apply Qcmult_pos; [exact Hb|qclra]).
    qcnra.
  - assert (Hb0 : normsq b = 0) by (apply Qcle_antisym; [exact Hb|apply normsq_nonneg]).
    assert (Hz : forall c, length c = length b -> dot c b = 0).
    { clear Hl. intros c Hc. revert c Hc Hb0. clear Hb. induction b; intros c Hc H0.
      - apply dot_nil_r.
      - destruct c; [discriminate|]. rewrite dot_cons. unfold normsq in *. rewrite dot_cons in H0.
        assert (P1 := Qc_sq_nonneg a0). assert (P2 := normsq_nonneg b). unfold normsq in P2.
        assert (a0 = 0) by qcnra. assert (dot b b = 0) by qcnra. rewrite IHb; auto. subst. ring. }
    rewrite Hz by exact Hl. rewrite Hb0. ring_simplify. apply Qcle_refl.
Qed.

(** * [tab1], [tab2] *)
Lemma tab1_length n f : length (tab1 n f) = n.
Proof. unfold tab1. rewrite map_length, seq_length. reflexivity. Qed.
Lemma tab2_length n m f : length (tab2 n m f) = n.
Proof. unfold tab2. rewrite map_length, seq_length. reflexivity. Qed.
Lemma nth_map_seq {A} (f : nat -> A) n i d : (i < n)%nat -> nth i (map f (seq 0 n)) d = f i.
Proof.
  intro H. rewrite (nth_indep _ d (f O)) by (rewrite map_length, seq_length; exact H).
  rewrite map_nth, seq_nth by exact H. reflexivity.
Qed.
Lemma get1_tab1 n f i : (i < n)%nat -> get1 (tab1 n f) i = f i.
Proof. apply nth_map_seq. Qed.
Lemma nth_tab2 n m f i d : (i < n)%nat -> nth i (tab2 n m f) d = tab1 m (f i).
Proof. intro H. unfold tab2. rewrite (nth_map_seq (fun i => tab1 m (f i))) by exact H. reflexivity. Qed.
Lemma get2_tab2 n m f i j : (i < n)%nat -> (j < m)%nat -> get2 (tab2 n m f) i j = f i j.
Proof.
  intros Hi Hj. unfold get2. rewrite nth_tab2 by exact Hi. apply get1_tab1. exact Hj.
Qed.
Lemma tab1_ext n f g : (forall i, (i < n)%nat -> f i = g i) -> tab1 n f = tab1 n g.
Proof.
  intro H. unfold tab1. apply map_ext_in. intros i Hi. apply in_seq in Hi. apply H. lia.
Qed.
Lemma tab2_ext n m f g : (forall i j, (i < n)%nat -> (j < m)%nat -> f i j = g i j) -> tab2 n m f = tab2 n m g.
Proof.
  intro H. unfold tab2. apply map_ext_in. intros i Hi. apply in_seq in Hi.
  apply tab1_ext. intros j Hj. apply H; lia.
Qed.
Lemma tab1_get l : tab1 (length l) (get1 l) = l.
Proof.
  apply vec_ext; rewrite tab1_length; auto. intros i Hi. apply get1_tab1. exact Hi.
Qed.
Lemma concat_tab2_length n m f : length (concat (tab2 n m f)) = (n * m)%nat.
Proof.
  unfold tab2. induction n; auto.
  rewrite seq_S, map_app, concat_app, app_length, IHn. simpl. rewrite app_nil_r, tab1_length. lia.
Qed.
Lemma tab2_S n m f : tab2 (S n) m f = tab2 n m f ++ [tab1 m (f n)].
Proof. unfold tab2. rewrite seq_S, map_app. reflexivity. Qed.
Lemma get1_concat_tab2 n m f i j :
  (i < n)%nat -> (j < m)%nat -> get1 (concat (tab2 n m f)) (i * m + j) = f i j.
Proof.
  intros Hi Hj. induction n; [lia|].
  rewrite tab2_S, concat_app.
  unfold get1 in *. destruct (Nat.eq_dec i n) as [->|Hne].
  - rewrite app_nth2; rewrite (concat_tab2_length n m f); [|lia].
    simpl. rewrite app_nil_r. replace (n * m + j - n * m)%nat with j by lia.
    apply get1_tab1. exact Hj.
  - rewrite app_nth1. apply IHn; lia. rewrite (concat_tab2_length n m f). nia.
Qed.
Lemma dot_concat_tab2 n m f v :
  length v = (n * m)%nat ->
  dot v (concat (tab2 n m f)) = sumn n (fun i => sumn m (fun j => get1 v (i * m + j) * f i j)).
Proof.
  intro Hv. rewrite dot_get by (rewrite concat_tab2_length; exact Hv).
  rewrite Hv, sumn_mul. apply sumn_ext. intros i Hi. apply sumn_ext. intros j Hj.
  rewrite get1_concat_tab2 by assumption. reflexivity.
Qed.

(** * slices *)
Definition slice {A} (a b : nat) (l : list A) : list A := firstn (b - a) (skipn a l).
Lemma slice_length {A} a b (l : list A) : (a <= b)%nat -> (b <= length l)%nat -> length (slice a b l) = (b - a)%nat.
Proof. intros. unfold slice. rewrite firstn_length, skipn_length. lia. Qed.
Lemma nth_firstn {A} (l : list A) n i d : (i < n)%nat -> nth i (firstn n l) d = nth i l d.
Proof.
  revert n i; induction l; intros n i H.
  - rewrite firstn_nil. destruct i; reflexivity.
  - destruct n; [lia|]. destruct i; simpl; auto. apply IHl. lia.
Qed.
Lemma nth_skipn {A} (l : list A) n i d : nth i (skipn n l) d = nth (n + i) l d.
Proof.
  revert n; induction l; intros n.
  - rewrite skipn_nil. destruct i, n; reflexivity.
  - destruct n; simpl; auto.
Qed.
Lemma get1_slice a b l i : (i < b - a)%nat -> get1 (slice a b l) i = get1 l (a + i).
Proof. intro H. unfold get1, slice. rewrite nth_firstn by exact H. apply nth_skipn. Qed.
Lemma skipn_as_slice {A} a (l : list A) : skipn a l = slice a (length l) l.
Proof.
  unfold slice. rewrite firstn_all2; auto. rewrite skipn_length. lia.
Qed.
Lemma get1_skipn a l i : get1 (skipn a l) i = get1 l (a + i).
Proof. apply nth_skipn. Qed.
Lemma get1_firstn a l i : (i < a)%nat -> get1 (firstn a l) i = get1 l i.
Proof. apply nth_firstn. Qed.
Lemma sumn_O f : sumn 0 f = 0.
Proof. reflexivity. Qed.
Lemma sumn_S n f : sumn (S n) f = sumn n f + f n.
Proof. reflexivity. Qed.
Global Arguments sumn : simpl never.

Lemma lsum_swap2 {A B} (f : A -> B -> Qc) l1 l2 :
  lsum (map (fun a => lsum (map (f a) l2)) l1) = lsum (map (fun b => lsum (map (fun a => f a b) l1)) l2).
Proof.
  induction l1 as [|a l1 IH]; simpl.
  - induction l2; simpl; auto. rewrite <- IHl2. ring.
  - rewrite IH. rewrite <- lsum_map_plus. reflexivity.
Qed.
