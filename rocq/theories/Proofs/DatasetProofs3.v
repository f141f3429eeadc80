From Coq Require Import ZArith.
From Verif Require Import Spec.DatasetSpec Proofs.Arrays Proofs.DatasetProofs.

Lemma sat_done {A} s (g : gen A) P p : sat False s g P -> exists a q, g s p = Done a q /\ P a.
Proof. intros H. generalize (H p). destruct (g s p) as [a q|e|]; [|tauto|tauto]. intros HP. exists a, q. split; [reflexivity|exact HP]. Qed.
Lemma sat_post {A} s (g : gen A) P p a q : sat True s g P -> g s p = Done a q -> P a.
Proof. intros H E. generalize (H p). rewrite E. tauto. Qed.
Lemma Forall2_all {A B} (P : A -> B -> Prop) (Q : A -> Prop) (S : B -> Prop) l l' :
  Forall2 P l l' -> Forall Q l -> (forall a b, P a b -> Q a -> S b) -> length l' = length l /\ Forall S l'.
Proof.
  intros H HQ K. induction H as [|a b l l' Hab _ IH]; [split; [reflexivity|constructor]|].
  destruct (IH (Forall_inv_tail HQ)) as [E F]. split; [cbn [length]; rewrite E; reflexivity|]. constructor; [exact (K a b Hab (Forall_inv HQ))|exact F].
Qed.
Lemma far_apart_spec k a b t l : far (Z.of_nat k) (Z.of_nat a, Z.of_nat b) t l = true -> far_apart k (a, b) (t, l).
Proof.
  unfold far, far_apart, dist. cbn [fst snd]. intros H. apply orb_true_iff in H. rewrite !Z.ltb_lt in H. lia.
Qed.
Lemma far_false k a b t l : (dist a t <= k)%nat -> (dist b l <= k)%nat -> far (Z.of_nat k) (Z.of_nat a, Z.of_nat b) t l = false.
Proof. unfold far, dist. cbn [fst snd]. intros H1 H2. apply orb_false_iff. rewrite !Z.ltb_ge. lia. Qed.

(** images followed by flips *)
Lemma sat_dataset R s n size c ms base lo hi v noise (g : gen (nat -> nat -> nat)) (Q : (nat -> nat -> nat) -> Prop) (S : grid_x * list nat -> Prop) :
  (0 < n -> lo < hi)%nat -> (0 < v)%nat -> (forall m u, In m ms -> (u < v)%nat -> (m * u < c)%nat) ->
  sat R s g Q -> (forall y, Q y -> forall i j, (i < size)%nat -> (j < size)%nat -> (base (y i j) < v)%nat) ->
  (forall y xy, Q y -> labelled size size xy y -> S xy) ->
  sat R s (gbind (times n g) (fun Ys => observe size c ms base lo hi v noise Ys))
    (fun D => length D = n /\ Forall (fun xy => shaped size size c xy /\ noisy_view size size c v noise base (fun u => map (fun m => m * u)%nat ms) xy /\ S xy) D).
Proof.
  intros H Hv Hms HG HB HS. destruct n as [|n].
  { intros p. cbn. split; [reflexivity|constructor]. }
  apply (sat_bind _ _ _ _ _ _ (sat_times _ _ (Datatypes.S n) _ _ HG)). intros Ys [HL HF].
  assert (HB' : forall y, In y Ys -> forall i j, (i < size)%nat -> (j < size)%nat -> (base (y i j) < v)%nat).
  { intros y Hy. rewrite Forall_forall in HF. exact (HB y (HF y Hy)). }
  apply (sat_weaken _ _ _ _ _ (sat_observe R s size c ms base lo hi v noise Ys (H ltac:(lia)) Hv Hms HB')).
  intros D HD. rewrite <- HL. apply (Forall2_all _ Q _ Ys D HD HF).
  intros y xy (S1 & S2 & S3) HQ. split; [exact S1|]. split; [exact S3|]. exact (HS y xy HQ S2).
Qed.

(** ** easy *)
Lemma sat_two_far R s reach lo hi put (Q : nat -> nat -> (nat -> nat -> nat) -> (nat -> nat -> nat) -> Prop) : (lo < hi)%nat -> (reach < 10)%nat ->
  (forall t l im, (lo <= t < hi)%nat -> (lo <= l < hi)%nat -> sat R s (put t l im) (Q t l im)) ->
  sat R s (two_far reach lo hi put 2) (fun im => exists t l im1, (lo <= t < hi)%nat /\ (lo <= l < hi)%nat /\ Q t l blank im1 /\
    (im = im1 \/ exists t' l', (lo <= t' < hi)%nat /\ (lo <= l' < hi)%nat /\ far_apart reach (t, l) (t', l') /\ Q t' l' im1 im)).
Proof.
  intros H HR HP. unfold two_far.
  set (I := fun k (st : Z * Z * (nat -> nat -> nat)) => match k with
    | 0 => st = ((-10, -10)%Z, blank)
    | 1 => exists t l im1, (lo <= t < hi)%nat /\ (lo <= l < hi)%nat /\ Q t l blank im1 /\ st = ((Z.of_nat t, Z.of_nat l), im1)
    | _ => exists t l im1, (lo <= t < hi)%nat /\ (lo <= l < hi)%nat /\ Q t l blank im1 /\
       (snd st = im1 \/ exists t' l', (lo <= t' < hi)%nat /\ (lo <= l' < hi)%nat /\ far_apart reach (t, l) (t', l') /\ Q t' l' im1 (snd st))
    end%nat).
  apply (sat_bind _ _ _ _ (I 2%nat)).
  - apply (sat_loop R s I _ 2) with (k := 0%nat); [|reflexivity|reflexivity]. intros k st Hk HI.
    apply (sat_bind _ _ _ _ _ _ (sat_randint2 R s lo hi H)). intros [t l] [Ht Hl]. cbn [fst snd] in Ht, Hl.
    destruct k as [|[|k]]; [| |lia].
    + cbn [I] in HI. subst st. cbn [fst snd]. replace (far _ _ t l) with true.
      * apply (sat_bind _ _ _ _ _ _ (HP t l blank Ht Hl)). intros im Him. apply sat_ret. exists t, l, im. tauto.
      * symmetry. unfold far. cbn [fst snd]. apply orb_true_iff. left. apply Z.ltb_lt. lia.
    + destruct HI as (t0 & l0 & im0 & Ht0 & Hl0 & HQ0 & ->). cbn [fst snd].
      destruct (far (Z.of_nat reach) (Z.of_nat t0, Z.of_nat l0) t l) eqn:E.
      * apply (sat_bind _ _ _ _ _ _ (HP t l im0 Ht Hl)). intros im Him. apply sat_ret. exists t0, l0, im0. cbn [snd].
        split; [exact Ht0|]. split; [exact Hl0|]. split; [exact HQ0|]. right. exists t, l. split; [exact Ht|]. split; [exact Hl|]. split; [apply far_apart_spec; exact E|exact Him].
      * apply sat_ret. exists t0, l0, im0. cbn [snd]. tauto.
  - intros st HI. apply sat_ret. exact HI.
Qed.
Lemma set_box a b (v : nat) t l im i j : set_at (sl t (t + a)) (sl l (l + b)) v im i j = if in_box a b t l i j then v else im i j.
Proof. reflexivity. Qed.

Lemma easy_data s p n noise box total : (box + 2 <= total)%nat ->
  exists D q, generate_easy n noise box total s p = Done D q /\ length D = n /\
  Forall (fun xy => shaped total total 2 xy /\ noisy_view total total 2 2 noise same (fun u => [1 * u]%nat) xy /\
    exists t l t' l', (1 <= t /\ t + box < total)%nat /\ (1 <= l /\ l + box < total)%nat /\ (1 <= t' /\ t' + box < total)%nat /\ (1 <= l' /\ l' + box < total)%nat /\
      (t' = t /\ l' = l \/ far_apart 3 (t, l) (t', l')) /\
      labelled total total xy (fun i j => if in_box box box t l i j || in_box box box t' l' i j then 1%nat else 0%nat)) D.
Proof.
  intros H. apply sat_done. unfold generate_easy.
  set (paint := fun t l im => set_at (sl t (t + box)) (sl l (l + box)) 1%nat im).
  eapply (sat_dataset False s n total 2 [1%nat] same 0 total 2 noise _ _ _); [lia|lia|intros m u [<-|[]] Hu; lia| | |].
  - apply (sat_two_far False s 3 1 (total - box) (fun t l im => gret (paint t l im)) (fun t l im im' => im' = paint t l im)); [lia|lia|]. intros t l im _ _. apply sat_ret. reflexivity.
  - intros y (t & l & im1 & _ & _ & -> & HY) i j _ _. unfold same.
    assert (B1 : forall u v, (paint t l blank u v <= 1)%nat) by (intros u v; unfold paint; rewrite set_box; destruct (in_box _ _ _ _ _ _); unfold blank; lia).
    destruct HY as [->|(t' & l' & _ & _ & _ & ->)]; [specialize (B1 i j); lia|]. unfold paint at 1. rewrite set_box. specialize (B1 i j). destruct (in_box _ _ _ _ _ _); lia.
  - intros y xy (t & l & im1 & Ht & Hl & -> & HY) HL.
    destruct HY as [->|(t' & l' & Ht' & Hl' & HF & ->)].
    + exists t, l, t, l. do 4 (split; [lia|]). split; [left; split; reflexivity|]. intros i j Hi Hj. rewrite (HL i j Hi Hj). unfold paint. rewrite set_box, orb_diag. reflexivity.
    + exists t, l, t', l'. do 4 (split; [lia|]). split; [right; exact HF|]. intros i j Hi Hj. rewrite (HL i j Hi Hj). unfold paint. rewrite !set_box.
      destruct (in_box box box t l i j), (in_box box box t' l' i j); reflexivity.
Qed.
Lemma boxes_disjoint k a b t l t' l' i j : (a <= k + 1)%nat -> (b <= k + 1)%nat -> far_apart k (t, l) (t', l') ->
  in_box a b t l i j = true -> in_box a b t' l' i j = true -> False.
Proof.
  unfold far_apart, dist, in_box. cbn [fst snd]. intros Ha Hb HF H1 H2.
  repeat (apply andb_true_iff in H1; destruct H1 as [H1 ?]). repeat (apply andb_true_iff in H2; destruct H2 as [H2 ?]).
  repeat match goal with H : (_ && _)%bool = true |- _ => apply andb_true_iff in H; destruct H end.
  repeat match goal with H : (_ <=? _)%nat = true |- _ => apply Nat.leb_le in H | H : (_ <? _)%nat = true |- _ => apply Nat.ltb_lt in H end. lia.
Qed.
Lemma raise_first {A} n (g : gen A) s p e k : (0 < n)%nat -> (forall p, g s p = Raised e) -> gbind (times n g) k s p = @Raised (list (grid_x * list nat)) e.
Proof. intros H HG. destruct n as [|n]; [lia|]. unfold gbind. cbn [times]. unfold gbind. rewrite HG. reflexivity. Qed.
Lemma randint2_raise lo hi s p : (hi <= lo)%nat -> randint2 lo hi s p = Raised ValueError.
Proof. intros H. unfold randint2, gbind, randint. rewrite (proj2 (Nat.ltb_ge _ _) H). reflexivity. Qed.
Lemma two_far_raise reach lo hi put n s p : (hi <= lo)%nat -> (0 < n)%nat -> two_far reach lo hi put n s p = Raised ValueError.
Proof. intros H Hn. destruct n as [|n]; [lia|]. unfold two_far. cbn [loopG]. unfold gbind at 1 2 3. rewrite randint2_raise by exact H. reflexivity. Qed.
Lemma easy_small s p n noise box total : (total < box + 2)%nat -> (0 < n)%nat -> generate_easy n noise box total s p = Raised ValueError.
Proof. intros H Hn. unfold generate_easy. apply raise_first; [exact Hn|]. intros q. apply two_far_raise; lia. Qed.

(** ** square with hole *)
Lemma hole_data s p n noise total : (5 <= total)%nat ->
  exists D q, generate_square_with_hole n noise total s p = Done D q /\ length D = n /\
  Forall (fun xy => shaped total total 2 xy /\ noisy_view total total 2 2 noise same (fun u => [1 * u]%nat) xy /\
    exists t l, (1 <= t /\ t + 3 < total)%nat /\ (1 <= l /\ l + 3 < total)%nat /\
      labelled total total xy (fun i j => if in_box 3 3 t l i j && negb (is_centre t l i j) then 1%nat else 0%nat)) D.
Proof.
  intros H. apply sat_done. unfold generate_square_with_hole.
  set (im := fun t l => set_at (just (t + 1)) (just (l + 1)) 0%nat (set_at (sl t (t + 3)) (sl l (l + 3)) 1%nat blank)).
  assert (V : forall t l i j, im t l i j = if in_box 3 3 t l i j && negb (is_centre t l i j) then 1%nat else 0%nat).
  { intros t l i j. unfold im. unfold set_at at 1. rewrite set_box. unfold is_centre, just. rewrite (Nat.eqb_sym i), (Nat.eqb_sym j).
    destruct ((t + 1 =? i)%nat && (l + 1 =? j)%nat); destruct (in_box 3 3 t l i j); reflexivity. }
  apply (sat_dataset False s n total 2 [1%nat] same 0 total 2 noise _ (fun y => exists t l, (1 <= t < total - 3)%nat /\ (1 <= l < total - 3)%nat /\ y = im t l)); [lia|lia|intros m u [<-|[]] Hu; lia| | |].
  - apply (sat_bind _ _ _ _ _ _ (sat_randint2 False s 1 (total - 3) ltac:(lia))). intros [t l] [Ht Hl]. cbn [fst snd] in Ht, Hl.
    apply (sat_bind _ _ _ _ (fun _ => True)); [apply sat_inside; [repeat (apply Forall_cons; [lia|]); apply Forall_nil|exact I]|]. intros _ _. apply sat_ret. exists t, l. split; [exact Ht|]. split; [exact Hl|reflexivity].
  - intros y (t & l & _ & _ & ->) i j _ _. unfold same. rewrite V. destruct (_ && _); lia.
  - intros y xy (t & l & Ht & Hl & ->) HL. exists t, l. split; [lia|]. split; [lia|]. intros i j Hi Hj. rewrite (HL i j Hi Hj). apply V.
Qed.
Lemma hole_small s p n noise total : (total < 5)%nat -> (0 < n)%nat -> generate_square_with_hole n noise total s p = Raised ValueError.
Proof. intros H Hn. unfold generate_square_with_hole. apply raise_first; [exact Hn|]. intros q. unfold gbind at 1. rewrite randint2_raise by lia. reflexivity. Qed.

(** ** easy_explicit *)
Lemma put_cross_value arm centre t l im i j :
  put_cross arm centre t l im i j = if is_centre t l i j then centre else if in_cross t l i j then arm else im i j.
Proof.
  unfold put_cross, set_at, just, sl, is_centre, in_cross. rewrite (Nat.eqb_sym (t + 1) i), (Nat.eqb_sym (l + 1) j).
  destruct (i =? t + 1)%nat, (j =? l + 1)%nat, (l <=? j)%nat, (j <? l + 3)%nat, (t <=? i)%nat, (i <? t + 3)%nat; reflexivity.
Qed.
Lemma centre_in_cross t l i j : is_centre t l i j = true -> in_cross t l i j = true.
Proof.
  unfold is_centre, in_cross. intros H. apply andb_true_iff in H. destruct H as [H1 H2]. apply Nat.eqb_eq in H1. apply Nat.eqb_eq in H2. subst.
  rewrite !Nat.eqb_refl. cbn [andb]. rewrite (proj2 (Nat.leb_le l (l + 1))) by lia. rewrite (proj2 (Nat.ltb_lt (l + 1) (l + 3))) by lia. reflexivity.
Qed.
Lemma easy_explicit_data s p n noise :
  exists D q, generate_easy_explicit n noise s p = Done D q /\ length D = n /\
  Forall (fun xy => shaped 9 9 4 xy /\ noisy_view 9 9 4 2 noise nonzero (fun u => [1 * u; 2 * u; 3 * u]%nat) xy /\
    exists t l, (1 <= t <= 5)%nat /\ (1 <= l <= 5)%nat /\ labelled 9 9 xy (nested t l)) D.
Proof.
  apply sat_done. unfold generate_easy_explicit.
  apply (sat_dataset False s n 9 4 [1;2;3]%nat nonzero 0 9 2 noise _ (fun y => exists t l, (1 <= t < 6)%nat /\ (1 <= l < 6)%nat /\ y = put_cross 2 3 t l (set_at (sl t (t + 3)) (sl l (l + 3)) 1%nat blank)));
    [lia|lia|intros m u [<-|[<-|[<-|[]]]] Hu; lia| | |].
  - apply (sat_bind _ _ _ _ _ _ (sat_randint2 False s 1 (9 - 3) ltac:(lia))). intros [t l] [Ht Hl]. cbn [fst snd] in Ht, Hl.
    replace (far 3 (-4, -4)%Z t l) with true by (symmetry; unfold far; cbn [fst snd]; apply orb_true_iff; left; apply Z.ltb_lt; lia).
    apply (sat_bind _ _ _ _ (fun _ => True)); [apply sat_inside; [repeat (apply Forall_cons; [lia|]); apply Forall_nil|exact I]|]. intros _ _. apply sat_ret. exists t, l. split; [exact Ht|]. split; [exact Hl|reflexivity].
  - intros y _ i j _ _. unfold nonzero. destruct (_ =? _)%nat; lia.
  - intros y xy (t & l & Ht & Hl & ->) HL. exists t, l. split; [lia|]. split; [lia|]. intros i j Hi Hj. rewrite (HL i j Hi Hj), put_cross_value, set_box. reflexivity.
Qed.

(** ** xs *)
Lemma xs_data s p fuel n noise : (0 < fuel)%nat ->
  exists D q, generate_xs fuel n noise s p = Done D q /\ length D = n /\
  Forall (fun xy => shaped 8 8 2 xy /\ noisy_view 8 8 2 2 noise same (fun u => [1 * u]%nat) xy /\
    exists t l, (1 <= t <= 4)%nat /\ (1 <= l <= 4)%nat /\ labelled 8 8 xy (fun i j => if in_x t l i j then 1%nat else 0%nat)) D.
Proof.
  intros HF. apply sat_done. unfold generate_xs.
  set (im := fun t l => set_at (just (t + 3)) (just (l + 1)) 1%nat (set_at (just (t + 1)) (just (l + 3)) 1%nat
          (set_at (just (t + 3)) (just (l + 3)) 1%nat (set_at (just (t + 2)) (just (l + 2)) 1%nat
          (set_at (just (t + 1)) (just (l + 1)) 1%nat blank))))).
  assert (V : forall t l i j, im t l i j = if in_x t l i j then 1%nat else 0%nat).
  { intros t l i j. unfold im, set_at, just, in_x. cbn [existsb fst snd]. rewrite (Nat.eqb_sym i), (Nat.eqb_sym j), (Nat.eqb_sym i (t + 2)), (Nat.eqb_sym j (l + 2)), (Nat.eqb_sym i (t + 3)), (Nat.eqb_sym j (l + 3)).
    destruct (t + 1 =? i)%nat, (t + 2 =? i)%nat, (t + 3 =? i)%nat, (l + 1 =? j)%nat, (l + 2 =? j)%nat, (l + 3 =? j)%nat; reflexivity. }
  apply (sat_dataset False s n 8 2 [1%nat] same 1 7 2 noise _ (fun y => exists t l, (1 <= t < 5)%nat /\ (1 <= l < 5)%nat /\ y = im t l)); [lia|lia|intros m u [<-|[]] Hu; lia| | |].
  - apply (sat_bind _ _ _ _ (fun q => 1 <= fst q < 5 /\ 1 <= snd q < 5)%nat).
    + destruct fuel as [|fuel]; [lia|]. cbn [place]. apply (sat_bind _ _ _ _ _ _ (sat_randint2 False s 1 (8 - 3) ltac:(lia))). intros [t l] [Ht Hl]. cbn [fst snd] in *.
      replace ((2 <? Z.abs (Z.of_nat t - -3))%Z && negb (Z.abs (Z.of_nat l - -3) =? 0)%Z) with true; [apply sat_ret; cbn [fst snd]; lia|].
      symmetry. apply andb_true_iff. split; [apply Z.ltb_lt; lia|]. apply negb_true_iff. apply Z.eqb_neq. lia.
    + intros [t l] [Ht Hl]. cbn [fst snd] in Ht, Hl.
      apply (sat_bind _ _ _ _ (fun _ => True)); [apply sat_inside; [repeat (apply Forall_cons; [lia|]); apply Forall_nil|exact I]|]. intros _ _. apply sat_ret. exists t, l. split; [exact Ht|]. split; [exact Hl|reflexivity].
  - intros y (t & l & _ & _ & ->) i j _ _. unfold same. rewrite V. destruct (in_x t l i j); lia.
  - intros y xy (t & l & Ht & Hl & ->) HL. exists t, l. split; [lia|]. split; [lia|]. intros i j Hi Hj. rewrite (HL i j Hi Hj). apply V.
Qed.
