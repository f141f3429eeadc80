From Coq Require Import ZArith.
From Verif Require Import Spec.DatasetSpec Proofs.Arrays Proofs.DatasetProofs.

(** ** deterministic labels *)
Lemma every_mod a k i : (a < k)%nat -> every a k i = (i mod k =? a)%nat.
Proof.
  intros H. unfold every. destruct (Nat.leb_spec a i) as [L|L]; cbn [andb].
  - assert (K : (k <> 0)%nat) by lia. assert (E := Nat.div_mod i k K). assert (B := Nat.mod_upper_bound i k K).
    set (q := (i / k)%nat) in *. set (r := (i mod k)%nat) in *.
    destruct (Nat.eqb_spec r a) as [->|N].
    + apply Nat.eqb_eq. replace (i - a)%nat with (q * k)%nat by nia. apply Nat.mod_mul. exact K.
    + apply Nat.eqb_neq. intros F. destruct (Nat.le_gt_cases a r) as [C|C].
      * replace (i - a)%nat with ((r - a) + q * k)%nat in F by nia. rewrite Nat.mod_add in F by exact K. rewrite Nat.mod_small in F by lia. lia.
      * destruct q as [|q]; [nia|]. replace (i - a)%nat with ((k + r - a) + q * k)%nat in F by nia. rewrite Nat.mod_add in F by exact K. rewrite Nat.mod_small in F by lia. lia.
  - symmetry. apply Nat.eqb_neq. rewrite Nat.mod_small by lia. lia.
Qed.
Lemma even_mod2 i : Nat.even i = (i mod 2 =? 0)%nat.
Proof.
  rewrite (Nat.div_mod i 2) at 1 by lia.
  replace (2 * (i / 2) + i mod 2)%nat with (i mod 2 + 2 * (i / 2))%nat by lia. rewrite Nat.even_add_mul_2.
  assert (B := Nat.mod_upper_bound i 2 ltac:(lia)). destruct (i mod 2)%nat as [|[|r]]; [reflexivity|reflexivity|lia].
Qed.
Lemma every_0_2 i : every 0 2 i = Nat.even i.
Proof. rewrite every_mod by lia. symmetry. apply even_mod2. Qed.
Lemma every_1_2 i : every 1 2 i = negb (Nat.even i).
Proof.
  rewrite every_mod by lia. rewrite even_mod2. assert (B := Nat.mod_upper_bound i 2 ltac:(lia)).
  destruct (i mod 2)%nat as [|[|r]]; [reflexivity|reflexivity|lia].
Qed.
Lemma checker_value {A} (u v : A) i j :
  set_at (every 1 2) (every 1 2) u (set_at (every 0 2) (every 0 2) u (fun _ _ => v)) i j = if Nat.even (i + j) then u else v.
Proof. unfold set_at. rewrite !every_1_2, !every_0_2, Nat.even_add. destruct (Nat.even i), (Nat.even j); reflexivity. Qed.

Lemma nth_error_tab {A} (f : nat -> A) n k a : nth_error (map f (seq 0 n)) k = Some a -> (k < n)%nat /\ a = f k.
Proof.
  intros H. assert (L : (k < n)%nat). { rewrite <- (map_seq_length f n). apply nth_error_Some. congruence. }
  split; [exact L|]. apply (nth_error_nth _ _ (f O)) in H. rewrite <- H. apply nth_seq_map. exact L.
Qed.

Lemma blocks_data n noise normal k xy : nth_error (generate_blocks n noise normal) k = Some xy ->
  shaped 10 12 2 xy /\ labelled 10 12 xy (fun _ j => if (j <? 6)%nat then 0%nat else 1%nat) /\
  (forall i j, (i < 10)%nat -> (j < 12)%nat -> channel (fst xy) i j 1 = (if (j <? 6)%nat then - (1) else 1) + noise * normal k i j /\
     channel (fst xy) i j 0 = - channel (fst xy) i j 1) /\
  ((forall i j, (i < 10)%nat -> (j < 12)%nat -> - (1) < noise * normal k i j /\ noise * normal k i j < 1) -> separable 10 12 2 xy).
Proof.
  unfold generate_blocks. intros H. apply nth_error_tab in H. destruct H as [_ ->].
  set (Y := set_at whole (sl 0 6) (- (1)) (fun _ _ => 1)).
  assert (V : forall i j, Y i j = if (j <? 6)%nat then - (1) else 1) by reflexivity.
  assert (L : forall i j, (i < 10)%nat -> (j < 12)%nat -> pixel 12 (labels_of 10 12 (fun i j => qpos (Y i j))) i j = if (j <? 6)%nat then 0%nat else 1%nat).
  { intros i j Hi Hj. rewrite pixel_labels by assumption. rewrite V. destruct (j <? 6)%nat; reflexivity. }
  split; [apply shaped_of|]. split; [exact L|]. split.
  - intros i j Hi Hj. cbn [fst]. rewrite !channel_grid by (try assumption; lia). cbn [Nat.eqb]. rewrite V. split; reflexivity.
  - intros HN i j c Hi Hj Hc Ne. cbn [fst snd] in *. rewrite L in * by assumption. assert (HN' := HN i j Hi Hj). destruct HN' as [N1 N2].
    set (e := noise * normal k i j) in *. 
    destruct (j <? 6)%nat eqn:E; destruct c as [|[|c]]; try lia; (split; [lia|]); rewrite !channel_grid by (try assumption; lia); cbn [Nat.eqb]; rewrite V, E; fold e; clearbody e; qclra.
Qed.
Lemma checker_data n noise normal k xy : nth_error (generate_checker n noise normal) k = Some xy ->
  shaped 11 13 2 xy /\ labelled 11 13 xy (fun i j => if Nat.even (i + j) then 0%nat else 1%nat) /\
  (forall i j, (i < 11)%nat -> (j < 13)%nat -> channel (fst xy) i j 0 = - ((if Nat.even (i + j) then - (1) else 1) + noise * normal k i j) /\
     channel (fst xy) i j 1 = 0) /\
  ((forall i j, (i < 11)%nat -> (j < 13)%nat -> - (1) < noise * normal k i j /\ noise * normal k i j < 1) -> separable 11 13 2 xy).
Proof.
  unfold generate_checker. intros H. apply nth_error_tab in H. destruct H as [_ ->].
  set (Y := set_at (every 1 2) (every 1 2) (- (1)) (set_at (every 0 2) (every 0 2) (- (1)) (fun _ _ => 1))).
  assert (V : forall i j, Y i j = if Nat.even (i + j) then - (1) else 1) by (intros; apply checker_value).
  assert (L : forall i j, (i < 11)%nat -> (j < 13)%nat -> pixel 13 (labels_of 11 13 (fun i j => qpos (Y i j))) i j = if Nat.even (i + j) then 0%nat else 1%nat).
  { intros i j Hi Hj. rewrite pixel_labels by assumption. rewrite V. destruct (Nat.even (i + j)); reflexivity. }
  split; [apply shaped_of|]. split; [exact L|]. split.
  - intros i j Hi Hj. cbn [fst]. rewrite !channel_grid by (try assumption; lia). cbn [Nat.eqb]. rewrite V. split; reflexivity.
  - intros HN i j c Hi Hj Hc Ne. cbn [fst snd] in *. rewrite L in * by assumption. assert (HN' := HN i j Hi Hj). destruct HN' as [N1 N2].
    set (e := noise * normal k i j) in *. 
    destruct (Nat.even (i + j)) eqn:E; destruct c as [|[|c]]; try lia; (split; [lia|]); rewrite !channel_grid by (try assumption; lia); cbn [Nat.eqb]; rewrite V, E; fold e; clearbody e; qclra.
Qed.
Lemma big_checker_data n noise nf fs normal k xy : nth_error (generate_big_checker n noise nf fs normal) k = Some xy ->
  let size := (nf * fs)%nat in
  shaped size size 2 xy /\ labelled size size xy (fun i j => if Nat.even (i / fs + j / fs) then 1%nat else 0%nat) /\
  (forall i j, (i < size)%nat -> (j < size)%nat -> channel (fst xy) i j 0 = (if Nat.even (i / fs + j / fs) then - (1) else 1) + noise * normal k i j /\
     channel (fst xy) i j 1 = - channel (fst xy) i j 0) /\
  ((forall i j, (i < size)%nat -> (j < size)%nat -> - (1) < noise * normal k i j /\ noise * normal k i j < 1) -> separable size size 2 xy).
Proof.
  intros H size. unfold generate_big_checker in H. apply nth_error_tab in H. destruct H as [_ ->]. fold size.
  set (y := set_at (every 1 2) (every 1 2) (- (1)) (set_at (every 0 2) (every 0 2) (- (1)) (fun _ _ => 1))).
  set (Y := fun i j => y (i / fs)%nat (j / fs)%nat).
  assert (V : forall i j, Y i j = if Nat.even (i / fs + j / fs) then - (1) else 1) by (intros; apply checker_value).
  assert (L : forall i j, (i < size)%nat -> (j < size)%nat -> pixel size (labels_of size size (fun i j => qneg (Y i j))) i j = if Nat.even (i / fs + j / fs) then 1%nat else 0%nat).
  { intros i j Hi Hj. rewrite pixel_labels by assumption. rewrite V. destruct (Nat.even (i / fs + j / fs)); reflexivity. }
  split; [apply shaped_of|]. split; [exact L|]. split.
  - intros i j Hi Hj. cbn [fst]. rewrite !channel_grid by (try assumption; lia). cbn [Nat.eqb]. change (y (i / fs)%nat (j / fs)%nat) with (Y i j). rewrite V. split; reflexivity.
  - intros HN i j c Hi Hj Hc Ne. cbn [fst snd] in *. rewrite L in * by assumption. assert (HN' := HN i j Hi Hj). destruct HN' as [N1 N2].
    set (e := noise * normal k i j) in *. 
    destruct (Nat.even (i / fs + j / fs)) eqn:E; destruct c as [|[|c]]; try lia; (split; [lia|]); rewrite !channel_grid by (try assumption; lia); cbn [Nat.eqb];
      change (y (i / fs)%nat (j / fs)%nat) with (Y i j); rewrite V, E; fold e; clearbody e; qclra.
Qed.

(** ** several classes *)
Lemma half_half : half + half = 1.
Proof. apply Qc_is_canon. reflexivity. Qed.
Lemma blocks_multi_data n noise sz normal : (2 <= sz)%nat ->
  let lab j := if (j <? sz / 3)%nat then 0%nat else if (j <? sz - sz / 3)%nat then 1%nat else 2%nat in
  exists D, generate_blocks_multinomial n noise sz normal = Ok D /\ length D = n /\
  forall k xy, nth_error D k = Some xy ->
  shaped (sz - 2) sz 3 xy /\ labelled (sz - 2) sz xy (fun _ j => lab j) /\
  (forall i j c, (i < sz - 2)%nat -> (j < sz)%nat -> (c < 3)%nat -> channel (fst xy) i j c = (if (lab j =? c)%nat then 1 else 0) + noise * normal k i j c) /\
  ((forall i j c, (i < sz - 2)%nat -> (j < sz)%nat -> (c < 3)%nat -> - half < noise * normal k i j c /\ noise * normal k i j c < half) -> separable (sz - 2) sz 3 xy).
Proof.
  intros HS lab. unfold generate_blocks_multinomial. rewrite (proj2 (Nat.leb_le _ _) HS). cbn [ensure bind]. eexists. split; [reflexivity|].
  split; [apply map_seq_length|]. intros k xy H. apply nth_error_tab in H. destruct H as [_ ->].
  set (st := (sz / 3)%nat) in *.
  set (Y := set_chan whole (sl (sz - st) sz) 2 1 (set_chan whole (sl st (sz - st)) 1 1 (set_chan whole (sl 0 st) 0 1 (fun _ _ _ => 0)))).
  assert (HST : (3 * st <= sz)%nat) by (apply Nat.mul_div_le; lia).
  assert (V : forall i j c, (i < sz - 2)%nat -> (j < sz)%nat -> (c < 3)%nat -> Y i j c = if (lab j =? c)%nat then 1 else 0).
  { intros i j c Hi Hj Hc. unfold Y, set_chan, whole, sl, lab.
    destruct (Nat.ltb_spec j st); destruct (Nat.ltb_spec j (sz - st)); destruct (Nat.leb_spec (sz - st) j); destruct (Nat.leb_spec st j); destruct (Nat.ltb_spec j sz); try lia;
      destruct c as [|[|[|c]]]; try lia; reflexivity. }
  assert (A : forall i j, (i < sz - 2)%nat -> (j < sz)%nat -> argmax_last 3 Y i j = lab j).
  { intros i j Hi Hj. unfold argmax_last. cbn [seq map]. rewrite !V by (try assumption; lia). unfold lab.
    destruct (j <? st)%nat; [reflexivity|]. destruct (j <? sz - st)%nat; reflexivity. }
  assert (L : forall i j, (i < sz - 2)%nat -> (j < sz)%nat -> pixel sz (labels_of (sz - 2) sz (argmax_last 3 Y)) i j = lab j).
  { intros i j Hi Hj. rewrite pixel_labels by assumption. apply A; assumption. }
  assert (LT : forall j, (lab j < 3)%nat) by (intros j; unfold lab; destruct (j <? st)%nat; [lia|destruct (j <? sz - st)%nat; lia]).
  split; [apply shaped_of|]. split; [exact L|]. split.
  - intros i j c Hi Hj Hc. cbn [fst]. rewrite channel_grid by assumption. rewrite V by assumption. reflexivity.
  - intros HN i j c Hi Hj Hc Ne. cbn [fst snd] in *. rewrite L in * by assumption. split; [apply LT|].
    rewrite !channel_grid by (try assumption; apply LT). rewrite !V by (try assumption; apply LT).
    destruct (HN i j c Hi Hj Hc) as [N1 N2]. destruct (HN i j (lab j) Hi Hj (LT j)) as [N3 N4]. assert (HH := half_half).
    rewrite Nat.eqb_refl. rewrite (proj2 (Nat.eqb_neq (lab j) c)) by (intros Q; apply Ne; symmetry; exact Q).
    set (e := noise * normal k i j c) in *. set (e' := noise * normal k i j (lab j)) in *. clearbody e e'. qclra.
Qed.
Lemma checker_multi_data n noise sz normal : (2 <= sz)%nat ->
  let lab i j := if Nat.even i && Nat.even j then 0%nat else if negb (Nat.even i) && negb (Nat.even j) then 1%nat else 2%nat in
  exists D, generate_checker_multinomial n noise sz normal = Ok D /\ length D = n /\
  forall k xy, nth_error D k = Some xy ->
  shaped (sz - 2) sz 3 xy /\ labelled (sz - 2) sz xy lab /\
  (forall i j c, (i < sz - 2)%nat -> (j < sz)%nat -> (c < 3)%nat ->
     channel (fst xy) i j c = (if (c =? 2)%nat then 0 else if (lab i j =? c)%nat then 1 else - (1)) + noise * normal k i j c) /\
  ((forall i j c, (i < sz - 2)%nat -> (j < sz)%nat -> (c < 3)%nat -> - half < noise * normal k i j c /\ noise * normal k i j c < half) -> separable (sz - 2) sz 3 xy).
Proof.
  intros HS lab. unfold generate_checker_multinomial. rewrite (proj2 (Nat.leb_le _ _) HS). cbn [ensure bind]. eexists. split; [reflexivity|].
  split; [apply map_seq_length|]. intros k xy H. apply nth_error_tab in H. destruct H as [_ ->].
  set (Y := set_chan whole whole 2 0 (set_chan (every 1 2) (every 1 2) 1 1 (set_chan (every 0 2) (every 0 2) 0 1 (fun _ _ _ => - (1))))).
  assert (V : forall i j c, (c < 3)%nat -> Y i j c = if (c =? 2)%nat then 0 else if (lab i j =? c)%nat then 1 else - (1)).
  { intros i j c Hc. unfold Y, set_chan, whole, lab. rewrite !every_1_2, !every_0_2. destruct (Nat.even i), (Nat.even j); destruct c as [|[|[|c]]]; try lia; reflexivity. }
  assert (A : forall i j, argmax_last 3 Y i j = lab i j).
  { intros i j. unfold argmax_last. cbn [seq map]. rewrite !V by lia. unfold lab.
    destruct (Nat.even i), (Nat.even j); reflexivity. }
  assert (L : forall i j, (i < sz - 2)%nat -> (j < sz)%nat -> pixel sz (labels_of (sz - 2) sz (argmax_last 3 Y)) i j = lab i j).
  { intros i j Hi Hj. rewrite pixel_labels by assumption. apply A. }
  assert (LT : forall i j, (lab i j < 3)%nat) by (intros i j; unfold lab; destruct (Nat.even i), (Nat.even j); cbn; lia).
  split; [apply shaped_of|]. split; [exact L|]. split.
  - intros i j c Hi Hj Hc. cbn [fst]. rewrite channel_grid by assumption. rewrite V by assumption. reflexivity.
  - intros HN i j c Hi Hj Hc Ne. cbn [fst snd] in *. rewrite L in * by assumption. split; [apply LT|].
    rewrite !channel_grid by (try assumption; apply LT). rewrite !V by (try assumption; apply LT).
    destruct (HN i j c Hi Hj Hc) as [N1 N2]. destruct (HN i j (lab i j) Hi Hj (LT i j)) as [N3 N4]. assert (HH := half_half).
    rewrite Nat.eqb_refl. rewrite (proj2 (Nat.eqb_neq (lab i j) c)) by (intros Q; apply Ne; symmetry; exact Q).
    set (e := noise * normal k i j c) in *. set (e' := noise * normal k i j (lab i j)) in *. clearbody e e'.
    destruct (Nat.eqb_spec c 2) as [->|NC]; destruct (Nat.eqb_spec (lab i j) 2) as [E2|NC']; try congruence; qclra.
Qed.
Lemma extended_data n noise nf fs normal k xy : nth_error (generate_big_checker_extended n noise nf fs normal) k = Some xy ->
  let size := (nf * fs)%nat in
  let lab i j := if (i mod 6 =? 1) && (j mod 6 =? 1) || (i mod 6 =? 4) && (j mod 6 =? 4) then 3%nat
                 else if (i mod 3 =? 1) && (j mod 3 =? 1) then 1%nat
                 else if Nat.even (i / fs + j / fs) then 2%nat else 0%nat in
  shaped size size 4 xy /\ labelled size size xy lab /\
  (forall i j c, (i < size)%nat -> (j < size)%nat -> (c < 4)%nat -> channel (fst xy) i j c = ((if (lab i j =? c)%nat then 1 else 0) + noise * normal k i j c) * ofN 100) /\
  ((forall i j c, (i < size)%nat -> (j < size)%nat -> (c < 4)%nat -> - half < noise * normal k i j c /\ noise * normal k i j c < half) -> separable size size 4 xy).
Proof.
  intros H size lab. unfold generate_big_checker_extended in H. apply nth_error_tab in H. destruct H as [_ ->]. fold size.
  match goal with |- context [labels_of size size ?f] => set (Y := f) end.
  assert (V : forall i j, Y i j = lab i j).
  { intros i j. unfold Y, lab. unfold set_at at 1 2 3. rewrite !every_mod by lia.
    assert (Q := checker_value 2%nat 0%nat (i / fs) (j / fs)). change (fun _ _ : nat => 0%nat) with blank in Q. rewrite Q.
    destruct (i mod 6 =? 1)%nat, (j mod 6 =? 1)%nat, (i mod 6 =? 4)%nat, (j mod 6 =? 4)%nat; reflexivity. }
  assert (L : forall i j, (i < size)%nat -> (j < size)%nat -> pixel size (labels_of size size Y) i j = lab i j).
  { intros i j Hi Hj. rewrite pixel_labels by assumption. apply V. }
  assert (LT : forall i j, (lab i j < 4)%nat).
  { intros i j. unfold lab. destruct (_ || _); [lia|]. destruct (_ && _); [lia|]. destruct (Nat.even _); lia. }
  split; [apply shaped_of|]. split; [exact L|]. split.
  - intros i j c Hi Hj Hc. cbn [fst]. rewrite channel_grid by assumption. rewrite V. reflexivity.
  - intros HN i j c Hi Hj Hc Ne. cbn [fst snd] in *. rewrite L in * by assumption. split; [apply LT|].
    rewrite !channel_grid by (try assumption; apply LT). rewrite !V.
    destruct (HN i j c Hi Hj Hc) as [N1 N2]. destruct (HN i j (lab i j) Hi Hj (LT i j)) as [N3 N4]. assert (HH := half_half).
    rewrite Nat.eqb_refl. rewrite (proj2 (Nat.eqb_neq (lab i j) c)) by (intros Q; apply Ne; symmetry; exact Q).
    set (e := noise * normal k i j c) in *. set (e' := noise * normal k i j (lab i j)) in *. clearbody e e'.
    assert (P : 0 < ofN 100) by reflexivity. set (h := ofN 100) in *. clearbody h.
    assert (G : 0 + e < 1 + e') by qclra. apply Qcmult_lt_compat_r; assumption.
Qed.
