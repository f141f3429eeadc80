(** C67: the synthetic grid data sets.  Random numbers come from an arbitrary stream [s] read from position [p]. *)
From Coq Require Import ZArith.
From Verif Require Import Spec.DatasetSpec Model.Initialize Proofs.DatasetProofs Proofs.DatasetProofs2 Proofs.DatasetProofs3 Proofs.DatasetProofs4 Proofs.DatasetProofs5 Proofs.InitializeProofs.

(** ** fixed labels with normal noise *)
(** labels, channels, and: with noise below the stated size the label is the strictly largest channel *)
Theorem C67_blocks : forall n noise normal k xy, nth_error (generate_blocks n noise normal) k = Some xy ->
  shaped 10 12 2 xy /\ labelled 10 12 xy (fun _ j => if (j <? 6)%nat then 0%nat else 1%nat) /\
  (forall i j, (i < 10)%nat -> (j < 12)%nat -> channel (fst xy) i j 1 = (if (j <? 6)%nat then - (1) else 1) + noise * normal k i j /\
     channel (fst xy) i j 0 = - channel (fst xy) i j 1) /\
  ((forall i j, (i < 10)%nat -> (j < 12)%nat -> - (1) < noise * normal k i j /\ noise * normal k i j < 1) -> separable 10 12 2 xy).
Proof. exact blocks_data. Qed.
Theorem C67_checker : forall n noise normal k xy, nth_error (generate_checker n noise normal) k = Some xy ->
  shaped 11 13 2 xy /\ labelled 11 13 xy (fun i j => if Nat.even (i + j) then 0%nat else 1%nat) /\
  (forall i j, (i < 11)%nat -> (j < 13)%nat -> channel (fst xy) i j 0 = - ((if Nat.even (i + j) then - (1) else 1) + noise * normal k i j) /\
     channel (fst xy) i j 1 = 0) /\
  ((forall i j, (i < 11)%nat -> (j < 13)%nat -> - (1) < noise * normal k i j /\ noise * normal k i j < 1) -> separable 11 13 2 xy).
Proof. exact checker_data. Qed.
Theorem C67_big_checker : forall n noise nf fs normal k xy, nth_error (generate_big_checker n noise nf fs normal) k = Some xy ->
  let size := (nf * fs)%nat in
  shaped size size 2 xy /\ labelled size size xy (fun i j => if Nat.even (i / fs + j / fs) then 1%nat else 0%nat) /\
  (forall i j, (i < size)%nat -> (j < size)%nat -> channel (fst xy) i j 0 = (if Nat.even (i / fs + j / fs) then - (1) else 1) + noise * normal k i j /\
     channel (fst xy) i j 1 = - channel (fst xy) i j 0) /\
  ((forall i j, (i < size)%nat -> (j < size)%nat -> - (1) < noise * normal k i j /\ noise * normal k i j < 1) -> separable size size 2 xy).
Proof. exact big_checker_data. Qed.
Theorem C67_number_of_samples : forall n noise nf fs normal normal4,
  length (generate_blocks n noise normal) = n /\ length (generate_checker n noise normal) = n /\
  length (generate_big_checker n noise nf fs normal) = n /\ length (generate_big_checker_extended n noise nf fs normal4) = n.
Proof. intros. repeat split; apply map_seq_length. Qed.
Theorem C67_blocks_multinomial : forall n noise sz normal, (2 <= sz)%nat ->
  let lab j := if (j <? sz / 3)%nat then 0%nat else if (j <? sz - sz / 3)%nat then 1%nat else 2%nat in
  exists D, generate_blocks_multinomial n noise sz normal = Ok D /\ length D = n /\
  forall k xy, nth_error D k = Some xy ->
  shaped (sz - 2) sz 3 xy /\ labelled (sz - 2) sz xy (fun _ j => lab j) /\
  (forall i j c, (i < sz - 2)%nat -> (j < sz)%nat -> (c < 3)%nat -> channel (fst xy) i j c = (if (lab j =? c)%nat then 1 else 0) + noise * normal k i j c) /\
  ((forall i j c, (i < sz - 2)%nat -> (j < sz)%nat -> (c < 3)%nat -> - half < noise * normal k i j c /\ noise * normal k i j c < half) -> separable (sz - 2) sz 3 xy).
Proof. exact blocks_multi_data. Qed.
Theorem C67_checker_multinomial : forall n noise sz normal, (2 <= sz)%nat ->
  let lab i j := if Nat.even i && Nat.even j then 0%nat else if negb (Nat.even i) && negb (Nat.even j) then 1%nat else 2%nat in
  exists D, generate_checker_multinomial n noise sz normal = Ok D /\ length D = n /\
  forall k xy, nth_error D k = Some xy ->
  shaped (sz - 2) sz 3 xy /\ labelled (sz - 2) sz xy lab /\
  (forall i j c, (i < sz - 2)%nat -> (j < sz)%nat -> (c < 3)%nat ->
     channel (fst xy) i j c = (if (c =? 2)%nat then 0 else if (lab i j =? c)%nat then 1 else - (1)) + noise * normal k i j c) /\
  ((forall i j c, (i < sz - 2)%nat -> (j < sz)%nat -> (c < 3)%nat -> - half < noise * normal k i j c /\ noise * normal k i j c < half) -> separable (sz - 2) sz 3 xy).
Proof. exact checker_multi_data. Qed.
Theorem C67_multinomial_too_small : forall n noise sz normal, (sz < 2)%nat ->
  generate_blocks_multinomial n noise sz normal = Err ValueError /\ generate_checker_multinomial n noise sz normal = Err ValueError.
Proof. intros n noise [|[|sz]] normal H; [split; reflexivity|split; reflexivity|lia]. Qed.
Theorem C67_big_checker_extended : forall n noise nf fs normal k xy, nth_error (generate_big_checker_extended n noise nf fs normal) k = Some xy ->
  let size := (nf * fs)%nat in
  let lab i j := if (i mod 6 =? 1) && (j mod 6 =? 1) || (i mod 6 =? 4) && (j mod 6 =? 4) then 3%nat
                 else if (i mod 3 =? 1) && (j mod 3 =? 1) then 1%nat
                 else if Nat.even (i / fs + j / fs) then 2%nat else 0%nat in
  shaped size size 4 xy /\ labelled size size xy lab /\
  (forall i j c, (i < size)%nat -> (j < size)%nat -> (c < 4)%nat -> channel (fst xy) i j c = ((if (lab i j =? c)%nat then 1 else 0) + noise * normal k i j c) * ofN 100) /\
  ((forall i j c, (i < size)%nat -> (j < size)%nat -> (c < 4)%nat -> - half < noise * normal k i j c /\ noise * normal k i j c < half) -> separable size size 4 xy).
Proof. exact extended_data. Qed.

(** ** random boxes, bars, crosses *)
Theorem C67_simple_2x2 : forall s p n_flips n,
  exists D q, make_simple_2x2 n_flips n s p = Done D q /\ length D = n /\
  Forall (fun xy : list Z * list nat => length (fst xy) = 16%nat /\ length (snd xy) = 16%nat /\
    (exists t l, (t = 0 \/ t = 2)%nat /\ (l = 0 \/ l = 2)%nat /\ forall i j, (i < 4)%nat -> (j < 4)%nat -> pixel 4 (snd xy) i j = if in_box 2 2 t l i j then 1%nat else 0%nat) /\
    (exists flipped, (length flipped <= n_flips)%nat /\ forall i j, (i < 4)%nat -> (j < 4)%nat ->
       nth (i * 4 + j) (fst xy) 0%Z = (if (pixel 4 (snd xy) i j =? 0)%nat then -1 else 1)%Z \/
       In (i, j) flipped /\ (nth (i * 4 + j) (fst xy) 0%Z = -1 \/ nth (i * 4 + j) (fst xy) 0%Z = 1)%Z)) D.
Proof. exact simple_data. Qed.
(** one or two boxes inside the image; the second is far from the first *)
Theorem C67_easy : forall s p n noise box total, (box + 2 <= total)%nat ->
  exists D q, generate_easy n noise box total s p = Done D q /\ length D = n /\
  Forall (fun xy => shaped total total 2 xy /\ noisy_view total total 2 2 noise (fun u => u) (fun u => [1 * u]%nat) xy /\
    exists t l t' l', (1 <= t /\ t + box < total)%nat /\ (1 <= l /\ l + box < total)%nat /\ (1 <= t' /\ t' + box < total)%nat /\ (1 <= l' /\ l' + box < total)%nat /\
      (t' = t /\ l' = l \/ far_apart 3 (t, l) (t', l')) /\
      labelled total total xy (fun i j => if in_box box box t l i j || in_box box box t' l' i j then 1%nat else 0%nat)) D.
Proof. exact easy_data. Qed.
(** so boxes of size at most 4 (bars, 3 x 3 crosses, ...) do not overlap *)
Theorem C67_far_boxes_disjoint : forall k a b t l t' l' i j, (a <= k + 1)%nat -> (b <= k + 1)%nat -> far_apart k (t, l) (t', l') ->
  in_box a b t l i j = true -> in_box a b t' l' i j = true -> False.
Proof. exact boxes_disjoint. Qed.
Theorem C67_square_with_hole : forall s p n noise total, (5 <= total)%nat ->
  exists D q, generate_square_with_hole n noise total s p = Done D q /\ length D = n /\
  Forall (fun xy => shaped total total 2 xy /\ noisy_view total total 2 2 noise (fun u => u) (fun u => [1 * u]%nat) xy /\
    exists t l, (1 <= t /\ t + 3 < total)%nat /\ (1 <= l /\ l + 3 < total)%nat /\
      labelled total total xy (fun i j => if in_box 3 3 t l i j && negb (is_centre t l i j) then 1%nat else 0%nat)) D.
Proof. exact hole_data. Qed.
Theorem C67_easy_explicit : forall s p n noise,
  exists D q, generate_easy_explicit n noise s p = Done D q /\ length D = n /\
  Forall (fun xy => shaped 9 9 4 xy /\ noisy_view 9 9 4 2 noise (fun u => if (u =? 0)%nat then 0%nat else 1%nat) (fun u => [1 * u; 2 * u; 3 * u]%nat) xy /\
    exists t l, (1 <= t <= 5)%nat /\ (1 <= l <= 5)%nat /\ labelled 9 9 xy (nested t l)) D.
Proof. exact easy_explicit_data. Qed.
Theorem C67_xs : forall s p fuel n noise, (0 < fuel)%nat ->
  exists D q, generate_xs fuel n noise s p = Done D q /\ length D = n /\
  Forall (fun xy => shaped 8 8 2 xy /\ noisy_view 8 8 2 2 noise (fun u => u) (fun u => [1 * u]%nat) xy /\
    exists t l, (1 <= t <= 4)%nat /\ (1 <= l <= 4)%nat /\ labelled 8 8 xy (fun i j => if in_x t l i j then 1%nat else 0%nat)) D.
Proof. exact xs_data. Qed.
(** too small an image is a ValueError of randint *)
Theorem C67_too_small : forall s p n noise size total sep, (0 < n)%nat ->
  ((total < size + 2)%nat -> generate_easy n noise size total s p = Raised ValueError /\ generate_bars n noise size total sep s p = Raised ValueError) /\
  ((total < 5)%nat -> generate_square_with_hole n noise total s p = Raised ValueError).
Proof.
  intros s p n noise size total sep Hn. split.
  - intros H. split; [exact (easy_small s p n noise size total H Hn)|exact (bars_small s p n noise size total sep H Hn)].
  - intros H. exact (hole_small s p n noise total H Hn).
Qed.

(** ** bars: the number of channels is the number of labels that happened to occur *)
Theorem C67_bars : forall s p n noise bars total sep, (bars + 2 <= total)%nat ->
  match generate_bars n noise bars total sep s p with
  | Done D _ => length D = n /\ exists c, (sep = false -> (1 < c -> bars <> 0) /\ c <= 2)%nat /\ Forall (bars_spec (if sep then 2 else 1)%nat bars total c noise) D
  | Raised e => sep = true /\ e = IndexError
  | Running => False
  end.
Proof. exact bars_any. Qed.
(** with the default parameters: when all bars are vertical there is no channel for their label 2 *)
Theorem C67_bars_refuted :
  ~ (forall s p, exists D q, generate_bars 5 5 3 8 true s p = Done D q).
Proof.
  intros H. destruct (H (fun _ => 1%nat) 0%nat) as (D & q & E).
  assert (R : generate_bars 5 5 3 8 true (fun _ => 1%nat) 0%nat = Raised IndexError) by (vm_compute; reflexivity).
  rewrite R in E. discriminate E.
Qed.

(** ** crosses *)
(** when the generator ends, it has drawn whole crosses, consecutive ones disjoint *)
Theorem C67_crosses : forall s p fuel n noise total k D q, (5 <= total)%nat -> generate_crosses fuel n noise total k s p = Done D q ->
  length D = n /\ Forall (fun xy => shaped total total 2 xy /\ noisy_view total total 2 2 noise (fun u => u) (fun u => [1 * u]%nat) xy /\ cross_spec total (total - 3) 1 1 k xy) D.
Proof. exact crosses_post. Qed.
Theorem C67_crosses_explicit : forall s p fuel n noise size k D q, (3 <= size)%nat -> generate_crosses_explicit fuel n noise size k s p = Done D q ->
  length D = n /\ Forall (fun xy => shaped size size 3 xy /\
     noisy_view size size 3 2 noise (fun u => if (u =? 0)%nat then 0%nat else 1%nat) (fun u => [1 * u; 2 * u]%nat) xy /\ cross_spec size (size - 1) 1 2 k xy) D.
Proof. exact explicit_post. Qed.
Theorem C67_far_crosses_disjoint : forall t l t' l' i j, far_apart 2 (t, l) (t', l') -> in_cross t l i j = true -> in_cross t' l' i j = true -> False.
Proof. exact crosses_disjoint. Qed.
(** it ends on streams that do not avoid a position for ever, if there is one cross or the image is large *)
Theorem C67_crosses_end : forall s p fuel n noise size k, 
  ((5 <= size)%nat -> (k <= 1 \/ 10 <= size)%nat -> fair fuel (size - 4) s -> exists D q, generate_crosses fuel n noise size k s p = Done D q) /\
  ((3 <= size)%nat -> (k <= 1 \/ 8 <= size)%nat -> fair fuel (size - 2) s -> exists D q, generate_crosses_explicit fuel n noise size k s p = Done D q).
Proof. exact (fun s p fuel n noise size k => conj (crosses_fair s p fuel n noise size k) (explicit_fair s p fuel n noise size k)). Qed.
(** in small images the while loop never ends, whatever is drawn *)
Theorem C67_crosses_end_refuted : forall s p fuel n noise size k, (0 < n)%nat -> (2 <= k)%nat ->
  ((5 <= size <= 7)%nat -> generate_crosses fuel n noise size k s p = Running) /\
  ((3 <= size <= 5)%nat -> generate_crosses_explicit fuel n noise size k s p = Running).
Proof.
  exact (fun s p fuel n noise size k Hn Hk => conj (fun H => generate_crosses_small s p fuel n noise size k H Hn Hk) (fun H => generate_explicit_small s p fuel n noise size k H Hn Hk)).
Qed.
(** and for sizes 8 and 9 it depends on where the first cross is: from the middle there is no way on *)
Theorem C67_crosses_8_9_refuted : forall s p fuel n noise total k,
  (total = 8 /\ (s p mod 4 = 1 \/ s p mod 4 = 2) /\ (s (S p) mod 4 = 1 \/ s (S p) mod 4 = 2) \/ total = 9 /\ s p mod 5 = 2 /\ s (S p) mod 5 = 2)%nat ->
  (0 < n)%nat -> (2 <= k)%nat -> generate_crosses fuel n noise total k s p = Running.
Proof. exact generate_crosses_8_9. Qed.

(** ** crosses with latent classes *)
Theorem C67_crosses_latent : forall s p n noise,
  exists D q, generate_crosses_latent n noise s p = Done D q /\ length D = n /\
  Forall (fun xy => shaped 8 8 2 xy /\ noisy_view 8 8 2 2 noise (fun u => if (u =? 0)%nat then 0%nat else 1%nat) (fun u => [1 * u]%nat) xy /\
    exists a b, (fst a <= 5 /\ snd a <= 5 /\ fst b <= 5 /\ snd b <= 5)%nat /\ labelled 8 8 xy (cross_label 2 3 [a; b])) D.
Proof. exact crosses_latent_data. Qed.
(** "Y knows four": every Y has exactly the labels 0, 2 and 3 *)
Theorem C67_four_labels_refuted : forall xy a b, shaped 8 8 2 xy -> (fst a <= 5 /\ snd a <= 5 /\ fst b <= 5 /\ snd b <= 5)%nat -> labelled 8 8 xy (cross_label 2 3 [a; b]) ->
  forall v, In v (snd xy) <-> (v = 0 \/ v = 2 \/ v = 3)%nat.
Proof. exact latent_labels. Qed.
(** so a model that takes n_states from this data takes 3, and its loss fails on every sample *)
Theorem C67_crosses_latent_usable_refuted : forall s p n noise D q directed Xs a a', generate_crosses_latent n noise s p = Done D q ->
  graph_initialize directed Xs (map (map Z.of_nat) (map snd D)) a = (a', None) ->
  forall y y', In y (map snd D) -> a_things a' = Some 3%nat /\ exists c, a_cw a' = Some c /\ loss (Some c) y y' = Err IndexError.
Proof. exact latent_gap. Qed.
(** a fresh model does accept it *)
Theorem C67_crosses_latent_accepted : forall s p n noise D q directed x Xs, (0 < n)%nat -> generate_crosses_latent n noise s p = Done D q ->
  snd (graph_initialize directed (x :: Xs) (map (map Z.of_nat) (map snd D)) (fst (construct (graph_sizer directed) None None None))) = None.
Proof. exact latent_accepted. Qed.

(** ** the hypotheses are met *)
Example C67_crosses_end_met : fair 37 (10 - 4) ex28_stream /\ fair 37 (8 - 2) ex28_stream.
Proof. exact (conj ex28_fair ex28_fair). Qed.
Example C67_crosses_computed :
  match generate_crosses 37 1 0 10 2 ex28_stream 0%nat with
  | Done [(x, y)] _ => y = [0;0;0;0;0;0;0;0;0;0; 0;0;1;0;0;1;0;0;0;0; 0;1;1;1;1;1;1;0;0;0; 0;0;1;0;0;1;0;0;0;0; 0;0;0;0;0;0;0;0;0;0;
                            0;0;0;0;0;0;0;0;0;0; 0;0;0;0;0;0;0;0;0;0; 0;0;0;0;0;0;0;0;0;0; 0;0;0;0;0;0;0;0;0;0; 0;0;0;0;0;0;0;0;0;0]%nat
  | _ => False
  end.
Proof. vm_compute. reflexivity. Qed.
(** noise of at most a half of a unit: the hypothesis of the separability clauses *)
Example C67_separable_met : let normal := fun k i j : nat => 1 in
  exists xy, nth_error (generate_blocks 2 half normal) 1 = Some xy /\ separable 10 12 2 xy.
Proof.
  intros normal. destruct (nth_error (generate_blocks 2 half normal) 1) as [xy|] eqn:E; [|discriminate E].
  exists xy. split; [reflexivity|]. apply (C67_blocks 2 half normal 1 xy E). intros i j _ _. split; vm_compute; reflexivity.
Qed.
Example C67_latent_met : exists D q, generate_crosses_latent 2 0 ex28_stream 1%nat = Done D q /\ length D = 2%nat.
Proof. destruct (C67_crosses_latent ex28_stream 1%nat 2 0) as (D & q & E & L & _). exists D, q. split; assumption. Qed.

Print Assumptions C67_blocks.
Print Assumptions C67_checker.
Print Assumptions C67_big_checker.
Print Assumptions C67_number_of_samples.
Print Assumptions C67_blocks_multinomial.
Print Assumptions C67_checker_multinomial.
Print Assumptions C67_multinomial_too_small.
Print Assumptions C67_big_checker_extended.
Print Assumptions C67_simple_2x2.
Print Assumptions C67_easy.
Print Assumptions C67_far_boxes_disjoint.
Print Assumptions C67_square_with_hole.
Print Assumptions C67_easy_explicit.
Print Assumptions C67_xs.
Print Assumptions C67_too_small.
Print Assumptions C67_bars.
Print Assumptions C67_bars_refuted.
Print Assumptions C67_crosses.
Print Assumptions C67_crosses_explicit.
Print Assumptions C67_far_crosses_disjoint.
Print Assumptions C67_crosses_end.
Print Assumptions C67_crosses_end_refuted.
Print Assumptions C67_crosses_8_9_refuted.
Print Assumptions C67_crosses_latent.
Print Assumptions C67_four_labels_refuted.
Print Assumptions C67_crosses_latent_usable_refuted.
Print Assumptions C67_crosses_latent_accepted.
