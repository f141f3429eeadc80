From Coq Require Import ZArith.
From Verif Require Import Spec.DatasetSpec Proofs.Arrays Proofs.DatasetProofs Proofs.DatasetProofs3.

(** ** crosses *)
Lemma spread_snoc k ps p : spread k ps -> (forall q, In q (match rev ps with [] => [] | q :: _ => [q] end) -> far_apart k q p) -> spread k (ps ++ [p]).
Proof.
  intros H HL. induction ps as [|a ps IH]; [exact I|].
  destruct ps as [|b ps].
  - cbn. split; [|exact I]. apply HL. left. reflexivity.
  - change (spread k (a :: (b :: ps) ++ [p])). destruct H as [H1 H2]. split; [exact H1|]. apply IH; [exact H2|].
    intros q Hq. apply HL. cbn [rev] in *. destruct (rev ps ++ [b]) as [|c r] eqn:E; [destruct (rev ps); discriminate E|]. exact Hq.
Qed.
Lemma cross_label_snoc arm centre ps p i j :
  cross_label arm centre (ps ++ [p]) i j = if is_centre (fst p) (snd p) i j then centre else if in_cross (fst p) (snd p) i j then arm else cross_label arm centre ps i j.
Proof.
  unfold cross_label. rewrite rev_app_distr. cbn [rev app find].
  destruct (is_centre (fst p) (snd p) i j) eqn:C; [rewrite (centre_in_cross _ _ _ _ C), C; reflexivity|].
  destruct (in_cross (fst p) (snd p) i j); [rewrite C|]; reflexivity.
Qed.

Definition start : Z * Z := (-3, -3)%Z.
Definition old_of (ps : list (nat * nat)) : Z * Z := match rev ps with [] => start | p :: _ => (Z.of_nat (fst p), Z.of_nat (snd p)) end.
Definition cinv (hi arm centre k : nat) (st : Z * Z * (nat -> nat -> nat)) : Prop :=
  exists ps, length ps = k /\ Forall (within_range hi) ps /\ spread 2 ps /\ fst st = old_of ps /\ forall i j, snd st i j = cross_label arm centre ps i j.

Lemma sat_crosses R s fuel size hi arm centre n : (0 < n -> hi < size)%nat ->
  (forall k ps, (k < n)%nat -> length ps = k -> Forall (within_range hi) ps ->
     sat R s (place fuel (far 2 (old_of ps)) 1 hi) (fun q => (1 <= fst q < hi /\ 1 <= snd q < hi)%nat /\ far 2 (old_of ps) (fst q) (snd q) = true)) ->
  sat R s (crosses fuel size hi arm centre n) (fun y => exists ps, length ps = n /\ Forall (within_range hi) ps /\ spread 2 ps /\
    forall i j, y i j = cross_label arm centre ps i j).
Proof.
  intros HS HP. unfold crosses. apply (sat_bind _ _ _ _ (cinv hi arm centre n)).
  - apply (sat_loop R s (cinv hi arm centre) _ n) with (k := 0%nat).
    + intros k st Hk (ps & HL & HF & HSp & HO & HI).
      rewrite HO. apply (sat_bind _ _ _ _ _ _ (HP k ps Hk HL HF)). intros [t l] [[Ht Hl] HA]. cbn [fst snd] in Ht, Hl, HA.
      apply (sat_bind _ _ _ _ (fun _ => True)). { specialize (HS ltac:(lia)). apply sat_inside; [repeat (apply Forall_cons; [lia|]); apply Forall_nil|exact I]. }
      intros _ _. apply sat_ret. exists (ps ++ [(t, l)]). split; [rewrite app_length; cbn [length]; lia|].
      split; [apply Forall_app; split; [exact HF|constructor; [split; assumption|constructor]]|]. split.
      * apply spread_snoc; [exact HSp|]. intros q Hq. unfold old_of in HA. destruct (rev ps) as [|a r]; [destruct Hq|]. destruct Hq as [<-|[]].
        destruct a as [a b]. cbn [fst snd] in HA. apply (far_apart_spec 2). exact HA.
      * split; [unfold old_of; rewrite rev_app_distr; reflexivity|]. intros i j. cbn [snd]. rewrite put_cross_value, cross_label_snoc, HI. reflexivity.
    + reflexivity.
    + exists []. split; [reflexivity|]. split; [constructor|]. split; [exact I|]. split; reflexivity.
  - intros st (ps & HL & HF & HSp & HO & HI). apply sat_ret. exists ps. tauto.
Qed.
Lemma far_start t l : (1 <= t)%nat -> far 2 start t l = true.
Proof. intros H. unfold far, start. cbn [fst snd]. apply orb_true_iff. left. apply Z.ltb_lt. lia. Qed.
(** there is always an acceptable position *)
Lemma acceptable hi ps : (2 <= hi)%nat -> ps = [] \/ (7 <= hi)%nat -> Forall (within_range hi) ps ->
  exists t l, (1 <= t < hi)%nat /\ (1 <= l < hi)%nat /\ far 2 (old_of ps) t l = true.
Proof.
  intros H2 H HF. unfold old_of. destruct (rev ps) as [|[a b] r] eqn:E.
  - exists 1%nat, 1%nat. split; [lia|]. split; [lia|]. apply far_start. lia.
  - assert (Hp : within_range hi (a, b)). { rewrite Forall_forall in HF. apply HF. apply in_rev. rewrite E. left. reflexivity. }
    destruct H as [->|H]; [discriminate E|]. destruct Hp as [Ha Hb]. cbn [fst snd] in *.
    exists (if (4 <=? a)%nat then 1%nat else (hi - 1)%nat), 1%nat. split; [destruct (4 <=? a)%nat; lia|]. split; [lia|].
    unfold far. cbn [fst snd]. apply orb_true_iff. left. apply Z.ltb_lt. destruct (Nat.leb_spec 4 a); lia.
Qed.

Lemma cross_label_le arm centre ps i j m : (arm <= m)%nat -> (centre <= m)%nat -> (cross_label arm centre ps i j <= m)%nat.
Proof. intros H1 H2. unfold cross_label. destruct (find _ _) as [p|]; [|lia]. destruct (is_centre _ _ _ _); lia. Qed.
Lemma nonzero_le v : (nonzero v < 2)%nat.
Proof. unfold nonzero. destruct (v =? 0)%nat; lia. Qed.

Lemma crosses_sat R s fuel n noise size hi arm centre c ms base k : (0 < n -> 1 < size - 1)%nat -> (0 < n -> 0 < k -> hi < size)%nat ->
  (forall m u, In m ms -> (u < 2)%nat -> (m * u < c)%nat) -> (forall ps i j, base (cross_label arm centre ps i j) < 2)%nat ->
  (0 < n -> forall j ps, (j < k)%nat -> length ps = j -> Forall (within_range hi) ps ->
     sat R s (place fuel (far 2 (old_of ps)) 1 hi) (fun q => (1 <= fst q < hi /\ 1 <= snd q < hi)%nat /\ far 2 (old_of ps) (fst q) (snd q) = true))%nat ->
  sat R s (gbind (times n (crosses fuel size hi arm centre k)) (fun Ys => observe size c ms base 1 (size - 1) 2 noise Ys))
   (fun D => length D = n /\ Forall (fun xy => shaped size size c xy /\ noisy_view size size c 2 noise base (fun u => map (fun m => m * u)%nat ms) xy /\ cross_spec size hi arm centre k xy) D).
Proof.
  intros HS HH Hms HB HP. destruct n as [|n]. { intros p. cbn. split; [reflexivity|constructor]. }
  apply (sat_dataset R s (Datatypes.S n) size c ms base 1 (size - 1) 2 noise _ _ _ (fun H => HS H) ltac:(lia) Hms
    (sat_crosses R s fuel size hi arm centre k (HH ltac:(lia)) (HP ltac:(lia)))).
  - intros y (ps & _ & _ & _ & HI) i j _ _. rewrite HI. apply HB.
  - intros y xy (ps & H1 & H2 & H3 & HI) HL. exists ps. split; [exact H1|]. split; [exact H2|]. split; [exact H3|]. intros i j Hi Hj. rewrite (HL i j Hi Hj). apply HI.
Qed.
Lemma crosses_post s p fuel n noise total k D q : (5 <= total)%nat -> generate_crosses fuel n noise total k s p = Done D q ->
  length D = n /\ Forall (fun xy => shaped total total 2 xy /\ noisy_view total total 2 2 noise same (fun u => [1 * u]%nat) xy /\ cross_spec total (total - 3) 1 1 k xy) D.
Proof.
  intros H E. refine (sat_post s _ (fun D => length D = n /\ Forall (fun xy => shaped total total 2 xy /\ noisy_view total total 2 2 noise same (fun u => [1 * u]%nat) xy /\ cross_spec total (total - 3) 1 1 k xy) D) p D q _ E).
  apply (crosses_sat True s fuel n noise total (total - 3) 1 1 2 [1%nat] same k); [lia|lia|intros m u [<-|[]] Hu; lia| |].
  - intros ps i j. unfold same. assert (L := cross_label_le 1 1 ps i j 1). lia.
  - intros _ j ps _ _ _. apply sat_place; [exact I|lia].
Qed.
Lemma crosses_fair s p fuel n noise total k : (5 <= total)%nat -> (k <= 1 \/ 10 <= total)%nat -> fair fuel (total - 4) s ->
  exists D q, generate_crosses fuel n noise total k s p = Done D q.
Proof.
  intros H HK HF. assert (Q : sat False s (generate_crosses fuel n noise total k) (fun D => length D = n /\ Forall (fun xy => shaped total total 2 xy /\ noisy_view total total 2 2 noise same (fun u => [1 * u]%nat) xy /\ cross_spec total (total - 3) 1 1 k xy) D)).
  { apply (crosses_sat False s fuel n noise total (total - 3) 1 1 2 [1%nat] same k); [lia|lia|intros m u [<-|[]] Hu; lia| |].
    - intros ps i j. unfold same. assert (L := cross_label_le 1 1 ps i j 1). lia.
    - intros _ j ps Hj HL HR. apply sat_place_fair; [lia|replace (total - 3 - 1)%nat with (total - 4)%nat by lia; exact HF|].
      apply acceptable; [lia| |exact HR]. destruct HK as [HK|HK]; [left; destruct ps; [reflexivity|cbn [length] in HL; lia]|right; lia]. }
  destruct (sat_done s _ _ p Q) as (D & q & E & _). exists D, q. exact E.
Qed.
Lemma explicit_post s p fuel n noise size k D q : (3 <= size)%nat -> generate_crosses_explicit fuel n noise size k s p = Done D q ->
  length D = n /\ Forall (fun xy => shaped size size 3 xy /\ noisy_view size size 3 2 noise nonzero (fun u => [1 * u; 2 * u]%nat) xy /\ cross_spec size (size - 1) 1 2 k xy) D.
Proof.
  intros H E. refine (sat_post s _ (fun D => length D = n /\ Forall (fun xy => shaped size size 3 xy /\ noisy_view size size 3 2 noise nonzero (fun u => [1 * u; 2 * u]%nat) xy /\ cross_spec size (size - 1) 1 2 k xy) D) p D q _ E).
  apply (crosses_sat True s fuel n noise size (size - 1) 1 2 3 [1; 2]%nat nonzero k); [lia|lia|intros m u [<-|[<-|[]]] Hu; lia| |].
  - intros ps i j. apply nonzero_le.
  - intros _ j ps _ _ _. apply sat_place; [exact I|lia].
Qed.
Lemma explicit_fair s p fuel n noise size k : (3 <= size)%nat -> (k <= 1 \/ 8 <= size)%nat -> fair fuel (size - 2) s ->
  exists D q, generate_crosses_explicit fuel n noise size k s p = Done D q.
Proof.
  intros H HK HF. assert (Q : sat False s (generate_crosses_explicit fuel n noise size k) (fun D => length D = n /\ Forall (fun xy => shaped size size 3 xy /\ noisy_view size size 3 2 noise nonzero (fun u => [1 * u; 2 * u]%nat) xy /\ cross_spec size (size - 1) 1 2 k xy) D)).
  { apply (crosses_sat False s fuel n noise size (size - 1) 1 2 3 [1; 2]%nat nonzero k); [lia|lia|intros m u [<-|[<-|[]]] Hu; lia| |].
    - intros ps i j. apply nonzero_le.
    - intros _ j ps Hj HL HR. apply sat_place_fair; [lia|replace (size - 1 - 1)%nat with (size - 2)%nat by lia; exact HF|].
      apply acceptable; [lia| |exact HR]. destruct HK as [HK|HK]; [left; destruct ps; [reflexivity|cbn [length] in HL; lia]|right; lia]. }
  destruct (sat_done s _ _ p Q) as (D & q & E & _). exists D, q. exact E.
Qed.
(** consecutive crosses do not touch the same pixel *)
Lemma crosses_disjoint t l t' l' i j : far_apart 2 (t, l) (t', l') -> in_cross t l i j = true -> in_cross t' l' i j = true -> False.
Proof.
  unfold far_apart, dist, in_cross. cbn [fst snd]. intros HF H1 H2.
  apply orb_true_iff in H1. apply orb_true_iff in H2.
  destruct H1 as [H1|H1]; destruct H2 as [H2|H2]; apply andb_true_iff in H1; apply andb_true_iff in H2; destruct H1 as [A1 B1]; destruct H2 as [A2 B2];
    apply andb_true_iff in B1; apply andb_true_iff in B2; destruct B1 as [B1 C1]; destruct B2 as [B2 C2];
    apply Nat.eqb_eq in A1; apply Nat.eqb_eq in A2; apply Nat.leb_le in B1; apply Nat.leb_le in B2; apply Nat.ltb_lt in C1; apply Nat.ltb_lt in C2; lia.
Qed.

(** the while loop that never ends *)
Lemma bind_done {A B} (g : gen A) (k : A -> gen B) s p a q : g s p = Done a q -> gbind g k s p = k a s q.
Proof. intros H. unfold gbind. rewrite H. reflexivity. Qed.
Lemma bind_running {A B} (g : gen A) (k : A -> gen B) s p : g s p = Running -> gbind g k s p = Running.
Proof. intros H. unfold gbind. rewrite H. reflexivity. Qed.
Lemma place_hit fuel accept lo hi s p : (lo < hi)%nat -> accept (lo + s p mod (hi - lo))%nat (lo + s (S p) mod (hi - lo))%nat = true ->
  place (S fuel) accept lo hi s p = Done (lo + s p mod (hi - lo), lo + s (S p) mod (hi - lo))%nat (S (S p)).
Proof.
  intros H HA. cbn [place]. unfold gbind, randint2, randint, gbind, gret. rewrite (proj2 (Nat.ltb_lt _ _) H). cbn [fst snd]. rewrite HA. reflexivity.
Qed.
Lemma crosses_stuck fuel size hi arm centre k s p : (2 <= hi < size)%nat -> (2 <= k)%nat ->
  (forall t, (1 <= t < hi)%nat -> (dist (1 + s p mod (hi - 1)) t <= 2 /\ dist (1 + s (S p) mod (hi - 1)) t <= 2)%nat) ->
  crosses fuel size hi arm centre k s p = Running.
Proof.
  intros H Hk HD. destruct k as [|[|k]]; [lia|lia|].
  assert (B := fun i => Nat.mod_upper_bound (s i) (hi - 1) ltac:(lia)).
  destruct fuel as [|fuel]; [reflexivity|].
  set (t0 := (1 + s p mod (hi - 1))%nat) in *. set (l0 := (1 + s (S p) mod (hi - 1))%nat) in *.
  assert (Ht0 : (1 <= t0 < hi)%nat) by (assert (Q := B p); unfold t0; lia). assert (Hl0 : (1 <= l0 < hi)%nat) by (assert (Q := B (S p)); unfold l0; lia).
  unfold crosses. apply bind_running. cbn [loopG].
  rewrite (bind_done _ _ s p ((Z.of_nat t0, Z.of_nat l0), put_cross arm centre t0 l0 blank) (S (S p))).
  - apply bind_running. apply bind_running. cbn [fst]. apply place_never; [lia|]. intros t l Ht Hl.
    apply (far_false 2); [apply (HD t Ht)|apply (HD l Hl)].
  - rewrite (bind_done _ _ s p (t0, l0) (S (S p))).
    + rewrite (bind_done _ _ s _ tt (S (S p))); [reflexivity|]. unfold inside. replace (forallb _ _) with true; [reflexivity|].
      symmetry. apply forallb_forall. intros i [<-|[<-|[]]]; apply Nat.ltb_lt; lia.
    + apply place_hit; [lia|]. apply far_start. fold t0. lia.
Qed.
Lemma generate_crosses_stuck s p fuel n noise total k : (5 <= total)%nat -> (0 < n)%nat -> (2 <= k)%nat ->
  (forall t, (1 <= t <= total - 4)%nat -> (dist (1 + s p mod (total - 4)) t <= 2 /\ dist (1 + s (S p) mod (total - 4)) t <= 2)%nat) ->
  generate_crosses fuel n noise total k s p = Running.
Proof.
  intros H Hn Hk HD. destruct n as [|n]; [lia|]. unfold generate_crosses. apply bind_running. cbn [times]. apply bind_running.
  apply crosses_stuck; [lia|exact Hk|]. replace (total - 3 - 1)%nat with (total - 4)%nat by lia. intros t Ht. apply HD. lia.
Qed.
Lemma generate_explicit_stuck s p fuel n noise size k : (3 <= size)%nat -> (0 < n)%nat -> (2 <= k)%nat ->
  (forall t, (1 <= t <= size - 2)%nat -> (dist (1 + s p mod (size - 2)) t <= 2 /\ dist (1 + s (S p) mod (size - 2)) t <= 2)%nat) ->
  generate_crosses_explicit fuel n noise size k s p = Running.
Proof.
  intros H Hn Hk HD. destruct n as [|n]; [lia|]. unfold generate_crosses_explicit. apply bind_running. cbn [times]. apply bind_running.
  apply crosses_stuck; [lia|exact Hk|]. replace (size - 1 - 1)%nat with (size - 2)%nat by lia. intros t Ht. apply HD. lia.
Qed.
Lemma generate_crosses_small s p fuel n noise total k : (5 <= total <= 7)%nat -> (0 < n)%nat -> (2 <= k)%nat ->
  generate_crosses fuel n noise total k s p = Running.
Proof.
  intros H Hn Hk. apply generate_crosses_stuck; [lia|exact Hn|exact Hk|]. intros t Ht.
  assert (B := fun i => Nat.mod_upper_bound (s i) (total - 4) ltac:(lia)). assert (B1 := B p). assert (B2 := B (S p)). unfold dist. lia.
Qed.
Lemma generate_explicit_small s p fuel n noise size k : (3 <= size <= 5)%nat -> (0 < n)%nat -> (2 <= k)%nat ->
  generate_crosses_explicit fuel n noise size k s p = Running.
Proof.
  intros H Hn Hk. apply generate_explicit_stuck; [lia|exact Hn|exact Hk|]. intros t Ht.
  assert (B := fun i => Nat.mod_upper_bound (s i) (size - 2) ltac:(lia)). assert (B1 := B p). assert (B2 := B (S p)). unfold dist. lia.
Qed.
(** a centre position from which nothing is far *)
Lemma generate_crosses_8_9 s p fuel n noise total k : (total = 8 /\ (s p mod 4 = 1 \/ s p mod 4 = 2) /\ (s (S p) mod 4 = 1 \/ s (S p) mod 4 = 2) \/
    total = 9 /\ s p mod 5 = 2 /\ s (S p) mod 5 = 2)%nat -> (0 < n)%nat -> (2 <= k)%nat ->
  generate_crosses fuel n noise total k s p = Running.
Proof.
  intros H Hn Hk. apply generate_crosses_stuck; [lia|exact Hn|exact Hk|]. intros t Ht.
  destruct H as [(-> & [E1|E1] & [E2|E2])|(-> & E1 & E2)]; cbn [Nat.sub] in *; rewrite E1, E2; unfold dist; lia.
Qed.

(** ** crosses with a gap in the labels *)
Lemma crosses_latent_data s p n noise :
  exists D q, generate_crosses_latent n noise s p = Done D q /\ length D = n /\
  Forall (fun xy => shaped 8 8 2 xy /\ noisy_view 8 8 2 2 noise nonzero (fun u => [1 * u]%nat) xy /\
    exists a b, (fst a <= 5 /\ snd a <= 5 /\ fst b <= 5 /\ snd b <= 5)%nat /\ labelled 8 8 xy (cross_label 2 3 [a; b])) D.
Proof.
  apply sat_done. unfold generate_crosses_latent.
  set (I := fun k (im : nat -> nat -> nat) => exists ps, length ps = k /\ Forall (fun a => (fst a <= 5 /\ snd a <= 5)%nat) ps /\ forall i j, im i j = cross_label 2 3 ps i j).
  apply (sat_dataset False s n 8 2 [1%nat] nonzero 0 8 2 noise _ (I 2%nat)); [lia|lia|intros m u [<-|[]] Hu; lia| | |].
  - apply (sat_loop False s I _ 2) with (k := 0%nat); [|reflexivity|exists []; split; [reflexivity|]; split; [constructor|reflexivity]].
    intros k im _ (ps & HL & HF & HI). apply (sat_bind _ _ _ _ _ _ (sat_randint2 False s 0 (8 - 2) ltac:(lia))). intros [t l] [Ht Hl]. cbn [fst snd] in Ht, Hl.
    apply (sat_bind _ _ _ _ (fun _ => True)); [apply sat_inside; [repeat (apply Forall_cons; [lia|]); apply Forall_nil|exact Logic.I]|]. intros _ _. apply sat_ret.
    exists (ps ++ [(t, l)]). split; [rewrite app_length; cbn [length]; lia|]. split; [apply Forall_app; split; [exact HF|constructor; [cbn [fst snd]; lia|constructor]]|].
    intros i j. rewrite put_cross_value, cross_label_snoc, HI. reflexivity.
  - intros y _ i j _ _. apply nonzero_le.
  - intros y xy (ps & HL & HF & HI) HLab. destruct ps as [|a [|b [|c ps]]]; try discriminate HL. exists a, b.
    assert (H1 := Forall_inv HF). assert (H2 := Forall_inv (Forall_inv_tail HF)). cbn beta in H1, H2. split; [tauto|]. intros i j Hi Hj. rewrite (HLab i j Hi Hj). apply HI.
Qed.
Lemma cross_last arm centre ps p i j : in_cross (fst p) (snd p) i j = true -> cross_label arm centre (ps ++ [p]) i j = if is_centre (fst p) (snd p) i j then centre else arm.
Proof. intros H. rewrite cross_label_snoc, H. reflexivity. Qed.
Lemma latent_labels xy a b : shaped 8 8 2 xy -> (fst a <= 5 /\ snd a <= 5 /\ fst b <= 5 /\ snd b <= 5)%nat -> labelled 8 8 xy (cross_label 2 3 [a; b]) ->
  forall v, In v (snd xy) <-> (v = 0 \/ v = 2 \/ v = 3)%nat.
Proof.
  intros (_ & _ & _ & _ & HL) (A1 & A2 & B1 & B2) HLab v.
  assert (IN : forall i j, (i < 8)%nat -> (j < 8)%nat -> In (cross_label 2 3 [a; b] i j) (snd xy)).
  { intros i j Hi Hj. rewrite <- (HLab i j Hi Hj). unfold pixel. apply nth_In. rewrite HL. lia. }
  split.
  - intros H. apply (In_nth _ _ O) in H. destruct H as (m & Hm & <-). rewrite HL in Hm.
    assert (E : nth m (snd xy) O = pixel 8 (snd xy) (m / 8) (m mod 8)). { unfold pixel. f_equal. rewrite Nat.mul_comm. apply Nat.div_mod. lia. }
    rewrite E, HLab; [|apply Nat.div_lt_upper_bound; lia|apply Nat.mod_upper_bound; lia].
    unfold cross_label. destruct (find _ _) as [q|]; [|tauto]. destruct (is_centre _ _ _ _); tauto.
  - intros [->|[->| ->]].
    + (* one of the rows 0, 3, 6 is touched by no cross *)
      assert (F : exists i, (i < 8)%nat /\ ~ (fst a <= i < fst a + 3)%nat /\ ~ (fst b <= i < fst b + 3)%nat).
      { destruct (Nat.le_gt_cases (fst a) 0) as [Ca|Ca]; destruct (Nat.le_gt_cases (fst b) 0) as [Cb|Cb]; [exists 6%nat; lia| | |exists 0%nat; lia].
        - destruct (Nat.le_gt_cases (fst b) 3); [exists 6%nat; lia|exists 3%nat; lia].
        - destruct (Nat.le_gt_cases (fst a) 3); [exists 6%nat; lia|exists 3%nat; lia]. }
      destruct F as (i & Hi & Fa & Fb).
      assert (N : forall q j, ~ (fst q <= i < fst q + 3)%nat -> in_cross (fst q) (snd q) i j = false).
      { intros q j HN. unfold in_cross. apply orb_false_iff. split; apply andb_false_iff.
        - left. apply Nat.eqb_neq. lia.
        - right. apply andb_false_iff. rewrite Nat.leb_gt, Nat.ltb_ge. lia. }
      replace 0%nat with (cross_label 2 3 [a; b] i 0); [apply IN; [exact Hi|lia]|]. unfold cross_label. cbn [rev app find]. rewrite (N a 0%nat Fa), (N b 0%nat Fb). reflexivity.
    + assert (C : in_cross (fst b) (snd b) (fst b + 1) (snd b) = true).
      { unfold in_cross. rewrite Nat.eqb_refl, Nat.leb_refl. rewrite (proj2 (Nat.ltb_lt (snd b) (snd b + 3))) by lia. reflexivity. }
      replace 2%nat with (cross_label 2 3 [a; b] (fst b + 1) (snd b)); [apply IN; lia|].
      change [a; b] with ([a] ++ [b]). rewrite (cross_last 2 3 [a] b _ _ C). unfold is_centre. rewrite (proj2 (Nat.eqb_neq (snd b) (snd b + 1))) by lia. rewrite andb_false_r. reflexivity.
    + assert (C : is_centre (fst b) (snd b) (fst b + 1) (snd b + 1) = true) by (unfold is_centre; rewrite !Nat.eqb_refl; reflexivity).
      replace 3%nat with (cross_label 2 3 [a; b] (fst b + 1) (snd b + 1)); [apply IN; lia|].
      change [a; b] with ([a] ++ [b]). rewrite (cross_last 2 3 [a] b _ _ (centre_in_cross _ _ _ _ C)), C. reflexivity.
Qed.
