(** Pictures given by rows of colour numbers, for examples and counterexamples. *)
From Coq Require Import ZArith Lia.
From Verif Require Import Spec.HiddenSnakesSpec Proofs.Arrays Proofs.Snakes Proofs.HiddenSnakes Proofs.HiddenSnakes2 Proofs.HiddenSnakes3.

Definition picture (h w : nat) (rows : list (list nat)) : arr3 :=
  atab h w 5 (fun i j c => ind (nth j (nth i rows []) 3 =? c)%nat).
Definition labels (h w : nat) (rows : list (list nat)) : lab2 := ltab h w (fun i j => nth j (nth i rows []) 0)%nat.
Lemma ind_one b : ind b = 1 <-> b = true.
Proof. destruct b; cbn; split; intro H; try reflexivity; discriminate H. Qed.
Lemma picture_one_hot h w rows : forallb (forallb (fun c => c <? 5)%nat) rows = true -> one_hot_picture (picture h w rows).
Proof.
  intro H. split; [reflexivity|]. cbn [picture atab a_h a_w]. intros i j Hi Hj. exists (nth j (nth i rows []) 3)%nat.
  assert (C : (nth j (nth i rows []) 3 < 5)%nat).
  { destruct (nth_in_or_default j (nth i rows []) 3%nat) as [I| ->]; [|lia].
    destruct (nth_in_or_default i rows []) as [I'|E]; [|rewrite E in I; destruct I].
    rewrite forallb_forall in H. specialize (H _ I'). rewrite forallb_forall in H. apply Nat.ltb_lt, H, I. }
  split; [exact C|]. unfold picture. split.
  - rewrite aget_atab by assumption. apply ind_one, Nat.eqb_refl.
  - intros c' Hc' N. rewrite aget_atab by assumption. rewrite ind_one, Nat.eqb_eq. congruence.
Qed.
Definition border_ok (h w : nat) (rows : list (list nat)) : bool :=
  forallb (fun ij => negb ((fst ij =? 0) || (snd ij =? 0) || (S (fst ij) =? h) || (S (snd ij) =? w)) ||
                     (nth (snd ij) (nth (fst ij) rows []) 3 =? 3))%nat (list_prod (seq 0 h) (seq 0 w)).
Lemma picture_framed h w rows : border_ok h w rows = true -> framed (picture h w rows).
Proof.
  intros H i j Hi Hj B. cbn [picture atab a_h a_w] in Hi, Hj, B. unfold picture. rewrite aget_atab by (assumption || lia).
  apply ind_one. unfold border_ok in H. rewrite forallb_forall in H. specialize (H (i, j)).
  rewrite in_prod_iff, !in_seq in H. specialize (H ltac:(lia)). cbn [fst snd] in H.
  apply orb_true_iff in H. destruct H as [H|H]; [|exact H]. exfalso.
  rewrite negb_true_iff, !orb_false_iff, !Nat.eqb_neq in H. lia.
Qed.
Lemma picture_count h w rows n : length (cells (picture h w rows)) = n -> coloured_count (picture h w rows) n.
Proof. apply count_cells. Qed.

(** ** a closed loop of 2 m cells around 2 rows of m cells: right .. right down left .. left up *)
Definition ring (m : nat) : arr3 :=
  atab 4 (m + 2) 5 (fun i j c => ind (
    (if negb ((1 <=? j) && (j <=? m)) then 3
     else if i =? 1 then (if j <? m then 2 else 1)
     else if i =? 2 then (if 1 <? j then 4 else 0) else 3) =? c))%nat.
Definition ring_cell (m k : nat) : nat * nat :=
  (if k <? m then (1, k + 1) else if k <? 2 * m then (2, 2 * m - k) else (1, 1))%nat.
Lemma ring_get m i j c : (i < 4)%nat -> (j < m + 2)%nat -> (c < 5)%nat -> aget (ring m) i j c = ind (
    (if negb ((1 <=? j) && (j <=? m)) then 3
     else if i =? 1 then (if j <? m then 2 else 1)
     else if i =? 2 then (if 1 <? j then 4 else 0) else 3) =? c)%nat.
Proof. apply aget_atab. Qed.
Ltac ring_cases := repeat match goal with
  | |- context [(?a <=? ?b)%nat] => destruct (Nat.leb_spec a b); cbn [andb negb]
  | |- context [(?a <? ?b)%nat] => destruct (Nat.ltb_spec a b); cbn [andb negb]
  | |- context [(?a =? ?b)%nat] => destruct (Nat.eqb_spec a b); cbn [andb negb]
  end; try lia; try reflexivity; try congruence.
Lemma ring_one_hot m : one_hot_picture (ring m).
Proof.
  split; [reflexivity|]. cbn [ring atab a_h a_w]. intros i j Hi Hj.
  set (c := (if negb ((1 <=? j) && (j <=? m)) then 3
     else if i =? 1 then (if j <? m then 2 else 1) else if i =? 2 then (if 1 <? j then 4 else 0) else 3)%nat).
  assert (C : (c < 5)%nat) by (unfold c; ring_cases). exists c. split; [exact C|]. split.
  - rewrite ring_get by assumption. fold c. apply ind_one, Nat.eqb_refl.
  - intros c' Hc' N. rewrite ring_get by assumption. fold c. rewrite ind_one, Nat.eqb_eq. congruence.
Qed.
Lemma ring_framed m : framed (ring m).
Proof.
  intros i j Hi Hj B. cbn [ring atab a_h a_w] in Hi, Hj, B. rewrite ring_get by (assumption || lia). apply ind_one, Nat.eqb_eq. ring_cases.
Qed.
Lemma ring_coloured m a : coloured (ring m) a <-> (fst a = 1 \/ fst a = 2)%nat /\ (1 <= snd a <= m)%nat.
Proof.
  destruct a as [i j]. unfold coloured. cbn [fst snd]. change (a_h (ring m)) with 4%nat. change (a_w (ring m)) with (m + 2)%nat. split.
  - intros [Hi [Hj H]]. rewrite ring_get in H by (assumption || lia). rewrite ind_one, Nat.eqb_eq in H. revert H. ring_cases.
  - intros [Hi Hj]. split; [lia|]. split; [lia|]. rewrite ring_get by lia. rewrite ind_one, Nat.eqb_eq. ring_cases.
Qed.
Lemma ring_points m k : (k < 2 * m)%nat -> points (ring m) (ring_cell m k) (ring_cell m (S k)).
Proof.
  intro H. unfold ring_cell. destruct (Nat.ltb_spec k m) as [K|K].
  - destruct (Nat.ltb_spec (S k) m) as [K'|K'].
    + replace (S k + 1)%nat with (S (k + 1)) by lia. apply points_right. rewrite ring_get by lia. apply ind_one, Nat.eqb_eq. ring_cases.
    + replace (S k <? 2 * m)%nat with true by (symmetry; apply Nat.ltb_lt; lia).
      replace (2 * m - S k)%nat with (k + 1)%nat by lia. apply points_down. rewrite ring_get by lia. apply ind_one, Nat.eqb_eq. ring_cases.
  - replace (k <? 2 * m)%nat with true by (symmetry; apply Nat.ltb_lt; lia).
    replace (S k <? m)%nat with false by (symmetry; apply Nat.ltb_ge; lia).
    destruct (Nat.ltb_spec (S k) (2 * m)) as [K'|K'].
    + replace (2 * m - k)%nat with (S (2 * m - S k)) by lia. apply points_left. rewrite ring_get by lia. apply ind_one, Nat.eqb_eq. ring_cases.
    + replace (2 * m - k)%nat with 1%nat by lia. apply points_up. rewrite ring_get by lia. apply ind_one, Nat.eqb_eq. ring_cases.
Qed.
Lemma ring_cell_coloured m k : (0 < m)%nat -> coloured (ring m) (ring_cell m k).
Proof. intro H. apply ring_coloured. unfold ring_cell. ring_cases; cbn [fst snd]; lia. Qed.
Lemma ring_arrows m : (0 < m)%nat -> forall n s, (s + n <= 2 * m)%nat -> arrows (ring m) (map (ring_cell m) (seq s (S n))).
Proof.
  intros H n. induction n as [|n IH]; intros s L; cbn [seq map].
  - apply arrows_one, ring_cell_coloured, H.
  - apply arrows_more; [apply ring_cell_coloured, H|apply ring_points; lia|]. apply (IH (S s)). lia.
Qed.
Lemma ring_inj m k k' : (k < 2 * m)%nat -> (k' < 2 * m)%nat -> ring_cell m k = ring_cell m k' -> k = k'.
Proof.
  intros H H' E. assert (E1 := f_equal fst E). assert (E2 := f_equal snd E). clear E. revert E1 E2.
  unfold ring_cell. ring_cases; cbn [fst snd]; lia.
Qed.
Lemma ring_NoDup m : NoDup (map (ring_cell m) (seq 0 (2 * m))).
Proof. apply GridProofs.NoDup_map_seq. intros i j Hi Hj. apply ring_inj; lia. Qed.
Lemma ring_loop m : (0 < m)%nat -> has_loop (ring m) (2 * m).
Proof.
  intro H. exists (ring_cell m 0), (map (ring_cell m) (seq 1 (2 * m - 1))).
  assert (E : ring_cell m 0 :: map (ring_cell m) (seq 1 (2 * m - 1)) = map (ring_cell m) (seq 0 (2 * m))).
  { replace (2 * m)%nat with (S (2 * m - 1)) at 2 by lia. reflexivity. }
  split; [rewrite E, map_length, seq_length; reflexivity|]. split; [rewrite E; apply ring_NoDup|].
  replace (ring_cell m 0 :: map (ring_cell m) (seq 1 (2 * m - 1)) ++ [ring_cell m 0]) with (map (ring_cell m) (seq 0 (S (2 * m)))).
  - apply ring_arrows; lia.
  - change (ring_cell m 0 :: map (ring_cell m) (seq 1 (2 * m - 1)) ++ [ring_cell m 0]) with ((ring_cell m 0 :: map (ring_cell m) (seq 1 (2 * m - 1))) ++ [ring_cell m 0]).
    rewrite E, seq_S, map_app. cbn [map Nat.add]. f_equal. f_equal. unfold ring_cell. ring_cases.
Qed.
Lemma ring_count m : (0 < m)%nat -> coloured_count (ring m) (2 * m).
Proof.
  intro H. exists (map (ring_cell m) (seq 0 (2 * m))). split; [apply ring_NoDup|]. split; [rewrite map_length, seq_length; reflexivity|].
  intro a. split.
  - intro I. apply in_map_iff in I. destruct I as [k [<- _]]. apply ring_cell_coloured, H.
  - intro C. apply ring_coloured in C. destruct a as [i j]. cbn [fst snd] in C. apply in_map_iff. destruct C as [[-> | ->] Hj].
    + exists (j - 1)%nat. split; [|apply in_seq; lia]. unfold ring_cell. ring_cases. f_equal. lia.
    + exists (2 * m - j)%nat. split; [|apply in_seq; lia]. unfold ring_cell. ring_cases. f_equal. lia.
Qed.
Lemma odd_refuted : forall m, (0 < m)%nat -> exists p, one_hot_picture p /\ framed p /\
  isSnakePresent p (2 * m + 1) = Ok true /\ ~ has_snake p (2 * m + 1).
Proof.
  intros m H. exists (ring m). split; [apply ring_one_hot|]. split; [apply ring_framed|]. split.
  - destruct (present_spec (ring m) (ring_one_hot m) (ring_framed m) (2 * m + 1)) as [b [E K]]. rewrite E. f_equal. apply K. right.
    replace (2 * m + 1 - 1)%nat with (2 * m)%nat by lia. apply ring_loop, H.
  - apply (few_cells (ring m) (2 * m)); [apply ring_count, H|lia].
Qed.
