(** Facts about the numpy primitives of Model/Numpy.v. *)
From Verif Require Import Model.Numpy.

Lemma bind_ok {A B} (r : res A) (k : A -> res B) b :
  bind r k = Ok b -> exists a, r = Ok a /\ k a = Ok b.
Proof. destruct r; simpl; [eauto|discriminate]. Qed.
Lemma ensure_ok b e u : ensure b e = Ok u -> b = true.
Proof. unfold ensure. destruct b; [auto|discriminate]. Qed.
Lemma ensure_true b e : b = true -> ensure b e = Ok tt.
Proof. intros ->. reflexivity. Qed.
Lemma ensure_false b e : b = false -> ensure b e = Err e.
Proof. intros ->. reflexivity. Qed.

Ltac inv_ok :=
  repeat match goal with
  | H : bind _ _ = Ok _ |- _ =>
      let a := fresh "v" in let H1 := fresh "Hk" in
      apply bind_ok in H; destruct H as [a [H1 H]]; simpl in H
  | H : ensure _ _ = Ok _ |- _ => apply ensure_ok in H
  | H : Ok _ = Ok _ |- _ => injection H as H; subst
  | H : Err _ = Ok _ |- _ => discriminate H
  end.

Lemma mat_okb_ok a : mat_okb a = true <-> mat_ok a.
Proof.
  unfold mat_okb, mat_ok. rewrite andb_true_iff, Nat.eqb_eq, forallb_forall, Forall_forall.
  split; intros [H1 H2]; split; auto; intros x Hx; apply Nat.eqb_eq; auto.
Qed.
Lemma mtab_ok n m f : mat_ok (mtab n m f).
Proof.
  split; simpl. apply tab2_length. apply Forall_forall. intros r Hr.
  unfold tab2 in Hr. apply in_map_iff in Hr. destruct Hr as [i [<- _]]. apply tab1_length.
Qed.
Lemma mget_mtab n m f i j : (i < n)%nat -> (j < m)%nat -> mget (mtab n m f) i j = f i j.
Proof. apply get2_tab2. Qed.
Lemma mget_T a i j : (i < mcols a)%nat -> (j < mrows a)%nat -> mget (mat_T a) i j = mget a j i.
Proof. intros. unfold mat_T. rewrite mget_mtab; auto. Qed.
Lemma mat_mul_ok a b : mcols a = mrows b ->
  mat_mul a b = Ok (mtab (mrows a) (mcols b) (fun i j => sumn (mcols a) (fun k => mget a i k * mget b k j))).
Proof. intro H. unfold mat_mul. rewrite H, Nat.eqb_refl. reflexivity. Qed.
Lemma reshape_ok v n m : length v = (n * m)%nat ->
  reshape v n m = Ok (mtab n m (fun i j => get1 v (i * m + j))).
Proof. intro H. unfold reshape. rewrite H, Nat.eqb_refl. reflexivity. Qed.
Lemma reshape_err v n m : length v <> (n * m)%nat -> reshape v n m = Err ValueError.
Proof. intro H. unfold reshape. apply Nat.eqb_neq in H. rewrite H. reflexivity. Qed.
Lemma ravel_mtab_length n m f : length (ravel (mtab n m f)) = (n * m)%nat.
Proof. apply concat_tab2_length. Qed.

Lemma mat_eq_ext a b : mat_ok a -> mat_ok b -> mrows a = mrows b -> mcols a = mcols b ->
  (forall i j, (i < mrows a)%nat -> (j < mcols a)%nat -> mget a i j = mget b i j) -> a = b.
Proof.
  destruct a as [n m d], b as [n' m' d']; unfold mat_ok, mget; simpl.
  intros [L1 F1] [L2 F2] -> -> H. f_equal.
  apply (nth_ext d d' [] []). congruence.
  intros i Hi. rewrite Forall_forall in F1, F2.
  assert (E1 : length (nth i d []) = m') by (apply F1, nth_In; lia).
  assert (E2 : length (nth i d' []) = m') by (apply F2, nth_In; lia).
  apply vec_ext. congruence. intros j Hj. apply H; lia.
Qed.

Lemma forallb_lt_Forall n l : forallb (fun i => (i <? n)%nat) l = true <-> Forall (fun i => (i < n)%nat) l.
Proof.
  rewrite forallb_forall, Forall_forall. split; intros H x Hx; apply Nat.ltb_lt, H, Hx.
Qed.
Lemma Forall_nth_lt (P : nat -> Prop) l i d : Forall P l -> (i < length l)%nat -> P (nth i l d).
Proof. intros F H. rewrite Forall_forall in F. apply F, nth_In, H. Qed.

Lemma nth_map_in {A B} (f : A -> B) l i da db : (i < length l)%nat -> nth i (map f l) db = f (nth i l da).
Proof.
  intro H. rewrite (nth_indep _ db (f da)) by (rewrite map_length; exact H). apply map_nth.
Qed.

Lemma one_hot_ok k y : Forall (fun s => (s < k)%nat) y ->
  one_hot k y = Ok (mtab (length y) k (fun i s => ind (s =? nth i y 0)%nat)).
Proof.
  intro H. unfold one_hot. apply forallb_lt_Forall in H. rewrite H. reflexivity.
Qed.

Lemma take_rows_ok a idx : Forall (fun i => (i < mrows a)%nat) idx ->
  take_rows a idx = Ok (Mat (length idx) (mcols a) (map (fun i => nth i (mdat a) []) idx)).
Proof.
  intro H. unfold take_rows. apply forallb_lt_Forall in H. rewrite H. reflexivity.
Qed.
Lemma mget_take_rows n c d idx e j :
  (e < length idx)%nat ->
  mget (Mat n c (map (fun i => nth i d []) idx)) e j = get2 d (nth e idx O) j.
Proof.
  intro H. unfold mget, get2. simpl.
  rewrite (nth_indep _ [] ((fun i => nth i d []) O)) by (rewrite map_length; exact H).
  rewrite (map_nth (fun i => nth i d [])). reflexivity.
Qed.

(** ** argmax *)
Lemma argmax_aux_spec l best bi i :
  let k := argmax_aux best bi i l in
  (k = bi /\ (forall x, In x l -> x <= best)) \/
  (exists p, k = (i + p)%nat /\ (p < length l)%nat /\ best < get1 l p /\
     (forall x, In x l -> x <= get1 l p) /\
     (forall q, (q < p)%nat -> get1 l q < get1 l p)).
Proof.
  revert best bi i. induction l as [|x r IH]; intros best bi i; simpl.
  - left. split; auto. intros ? [].
  - destruct (Qcltb_spec best x) as [L|L].
    + right. destruct (IH x i (S i)) as [[E H]|[p [E [Hp [Hb [Hm Hf]]]]]].
      * exists O. simpl. rewrite E. repeat split; try lia; auto.
        { intros z [<-|Hz]; [apply Qcle_refl|auto]. }
      * exists (S p). rewrite E. unfold get1 in *. simpl. repeat split; try lia.
        { qclra. }
        { intros z [<-|Hz]; [qclra|auto]. }
        { intros [|q] Hq; simpl; [exact Hb|apply Hf; lia]. }
    + destruct (IH best bi (S i)) as [[E H]|[p [E [Hp [Hb [Hm Hf]]]]]].
      * left. rewrite E. split; auto. intros z [<-|Hz]; auto.
      * right. exists (S p). rewrite E. unfold get1 in *. simpl. repeat split; try lia; auto.
        { intros z [<-|Hz]; [qclra|auto]. }
        { intros [|q] Hq; simpl; [qclra|apply Hf; lia]. }
Qed.

(** numpy.argmax: in range, maximal, first among the maximal ones. *)
Lemma np_argmax_spec l k : np_argmax l = Ok k ->
  (k < length l)%nat /\ (forall i, (i < length l)%nat -> get1 l i <= get1 l k) /\
  (forall i, (i < k)%nat -> get1 l i < get1 l k).
Proof.
  destruct l as [|x r]; [discriminate|]. intro H. injection H as <-.
  destruct (argmax_aux_spec r x 0 1) as [[E H]|[p [E [Hp [Hb [Hm Hf]]]]]]; simpl in E; rewrite E.
  - simpl. split; [lia|]. split; [|lia].
    intros [|i] Hi; [apply Qcle_refl|]. unfold get1; simpl. apply H, nth_In. lia.
  - simpl. split; [lia|]. unfold get1 in *; simpl. split.
    + intros [|i] Hi; [qclra|]. apply Hm, nth_In. lia.
    + intros [|i] Hi; [exact Hb|]. apply Hf. lia.
Qed.
Lemma np_argmax_ok l : (0 < length l)%nat -> exists k, np_argmax l = Ok k.
Proof. destruct l; simpl; [lia|eauto]. Qed.
Lemma fold_max_spec r x : x <= fold_left Qcmax r x /\ (forall z, In z r -> z <= fold_left Qcmax r x) /\
  (fold_left Qcmax r x = x \/ In (fold_left Qcmax r x) r).
Proof.
  revert x; induction r as [|a r IH]; intros x; simpl.
  - split; [apply Qcle_refl|]. split; [intros ? []|auto].
  - destruct (IH (Qcmax x a)) as [H1 [H2 H3]].
    assert (A := Qcmax_ge_l x a). assert (B := Qcmax_ge_r x a).
    split; [qclra|]. split.
    + intros z [<-|Hz]; [qclra|auto].
    + destruct H3 as [H3|H3]; [|auto]. rewrite H3. destruct (Qcmax_either x a) as [E|E]; rewrite E; auto.
Qed.
Lemma np_max_spec l m : np_max l = Ok m -> In m l /\ (forall x, In x l -> x <= m).
Proof.
  destruct l as [|x r]; [discriminate|]. intro H. injection H as <-.
  destruct (fold_max_spec r x) as [H1 [H2 H3]]. split.
  - destruct H3 as [->|H3]; simpl; auto.
  - intros z [<-|Hz]; auto.
Qed.

Lemma index_ok {A} (l : list A) i d : (i < length l)%nat -> index l i = Ok (nth i l d).
Proof.
  intro H. unfold index. rewrite (nth_error_nth' l d H). reflexivity.
Qed.
Lemma index_err {A} (l : list A) i : (length l <= i)%nat -> index l i = Err IndexError.
Proof. intro H. unfold index. apply nth_error_None in H. rewrite H. reflexivity. Qed.
