From Coq Require Import ZArith.
From Verif Require Import Spec.DatasetSpec Proofs.Arrays Proofs.LossProofs.

(** ** arrays *)
Lemma nth_concat_uniform {A} (d : A) m (ls : list (list A)) : Forall (fun l => length l = m) ls -> forall i j, (j < m)%nat ->
  nth (i * m + j) (concat ls) d = nth j (nth i ls []) d.
Proof.
  induction 1 as [|l ls Hl _ IH]; intros i j Hj.
  - cbn [concat]. assert (N : forall k, nth k (@nil A) d = d) by (intros [|k]; reflexivity). rewrite N. destruct i; cbn [nth]; symmetry; apply N.
  - cbn [concat]. destruct i as [|i].
    + cbn [nth Nat.mul Nat.add]. apply app_nth1. lia.
    + cbn [nth]. rewrite app_nth2 by (cbn [Nat.mul]; lia). rewrite <- IH by exact Hj. f_equal. cbn [Nat.mul]. lia.
Qed.
Lemma length_concat_uniform {A} m (ls : list (list A)) : Forall (fun l => length l = m) ls -> length (concat ls) = (length ls * m)%nat.
Proof. induction 1 as [|l ls Hl _ IH]; [reflexivity|]. cbn [concat length Nat.mul]. rewrite app_length, IH, Hl. reflexivity. Qed.
Lemma nth_seq_map {A} (d : A) (f : nat -> A) n i : (i < n)%nat -> nth i (map f (seq 0 n)) d = f i.
Proof. intros H. rewrite (nth_indep _ d (f O)) by (rewrite map_length, seq_length; exact H). rewrite map_nth, seq_nth by exact H. reflexivity. Qed.
Lemma rows_uniform {A} (g : nat -> list A) n m : (forall i, length (g i) = m) -> Forall (fun l => length l = m) (map g (seq 0 n)).
Proof. intros H. apply Forall_forall. intros l Hl. apply in_map_iff in Hl. destruct Hl as (i & <- & _). apply H. Qed.
Lemma map_seq_length {A} (f : nat -> A) n : length (map f (seq 0 n)) = n.
Proof. rewrite map_length, seq_length. reflexivity. Qed.

Lemma pixel_labels h w f i j : (i < h)%nat -> (j < w)%nat -> pixel w (labels_of h w f) i j = f i j.
Proof.
  intros Hi Hj. unfold pixel, labels_of.
  rewrite (nth_concat_uniform O w _ (rows_uniform _ h w (fun i => map_seq_length (f i) w)) i j Hj).
  rewrite (nth_seq_map [] (fun i => map (f i) (seq 0 w)) h i Hi). apply nth_seq_map. exact Hj.
Qed.
Lemma labels_length h w f : length (labels_of h w f) = (h * w)%nat.
Proof. unfold labels_of. rewrite (length_concat_uniform w) by (apply rows_uniform; intros; apply map_seq_length). rewrite map_seq_length. reflexivity. Qed.
Lemma row_length w c (f : nat -> nat -> Qc) : length (concat (map (fun j => map (f j) (seq 0 c)) (seq 0 w))) = (w * c)%nat.
Proof. rewrite (length_concat_uniform c) by (apply rows_uniform; intros; apply map_seq_length). rewrite map_seq_length. reflexivity. Qed.
Lemma channel_grid h w c f i j k : (i < h)%nat -> (j < w)%nat -> (k < c)%nat -> channel (grid_of h w c f) i j k = f i j k.
Proof.
  intros Hi Hj Hk. unfold channel, grid_of, get1. cbn [gr_data gr_w gr_c].
  replace ((i * w + j) * c + k)%nat with (i * (w * c) + (j * c + k))%nat by lia.
  rewrite (nth_concat_uniform 0 (w * c)) by (try (apply rows_uniform; intros; apply row_length); nia).
  rewrite (nth_seq_map [] (fun i => concat (map (fun j => map (f i j) (seq 0 c)) (seq 0 w))) h i Hi).
  rewrite (nth_concat_uniform 0 c) by (try (apply rows_uniform; intros; apply map_seq_length); exact Hk).
  rewrite (nth_seq_map [] (fun j => map (f i j) (seq 0 c)) w j Hj). apply nth_seq_map. exact Hk.
Qed.
Lemma grid_length h w c f : length (gr_data (grid_of h w c f)) = (h * w * c)%nat.
Proof. cbn [grid_of gr_data]. rewrite (length_concat_uniform (w * c)) by (apply rows_uniform; intros; apply row_length). rewrite map_seq_length. lia. Qed.
Lemma shaped_of h w c f g : shaped h w c (grid_of h w c f, labels_of h w g).
Proof. split; [reflexivity|]. split; [reflexivity|]. split; [reflexivity|]. split; [apply grid_length|apply labels_length]. Qed.

(** ** what a generator gives on a stream; [R] says whether it may be still running *)
Definition sat (R : Prop) (s : nat -> nat) {A} (g : gen A) (P : A -> Prop) : Prop :=
  forall p, match g s p with Done a _ => P a | Raised _ => False | Running => R end.
Section Sat.
Variable R : Prop.
Variable s : nat -> nat.
Lemma sat_ret {A} (a : A) (P : A -> Prop) : P a -> sat R s (gret a) P.
Proof. intros H p. exact H. Qed.
Lemma sat_bind {A B} (g : gen A) (k : A -> gen B) P Q : sat R s g P -> (forall a, P a -> sat R s (k a) Q) -> sat R s (gbind g k) Q.
Proof. intros H K p. unfold gbind. generalize (H p). destruct (g s p) as [a q|e|]; [|tauto|tauto]. intros HP. exact (K a HP q). Qed.
Lemma sat_weaken {A} (g : gen A) (P Q : A -> Prop) : sat R s g P -> (forall a, P a -> Q a) -> sat R s g Q.
Proof. intros H K p. generalize (H p). destruct (g s p); auto. Qed.
Lemma sat_lift {A} (r : res A) a (P : A -> Prop) : r = Ok a -> P a -> sat R s (glift r) P.
Proof. intros -> H p. exact H. Qed.
Lemma sat_ensure b e (P : unit -> Prop) : b = true -> P tt -> sat R s (glift (ensure b e)) P.
Proof. intros ->. apply sat_lift. reflexivity. Qed.
Lemma sat_inside n l (P : unit -> Prop) : Forall (fun i => i < n)%nat l -> P tt -> sat R s (inside n l) P.
Proof.
  intros H. apply sat_ensure. apply forallb_forall. intros i Hi. apply Nat.ltb_lt. rewrite Forall_forall in H. exact (H i Hi).
Qed.
Lemma sat_randint lo hi : (lo < hi)%nat -> sat R s (randint lo hi) (fun a => lo <= a < hi)%nat.
Proof.
  intros H p. unfold randint. rewrite (proj2 (Nat.ltb_lt _ _) H).
  assert (Q := Nat.mod_upper_bound (s p) (hi - lo)). lia.
Qed.
Lemma sat_randint2 lo hi : (lo < hi)%nat -> sat R s (randint2 lo hi) (fun q => lo <= fst q < hi /\ lo <= snd q < hi)%nat.
Proof.
  intros H. unfold randint2. apply (sat_bind _ _ _ _ (sat_randint lo hi H)). intros a Ha.
  apply (sat_bind _ _ _ _ (sat_randint lo hi H)). intros b Hb. apply sat_ret. split; assumption.
Qed.
Lemma sat_coin : sat R s coin (fun _ => True).
Proof. intros p. exact I. Qed.
Lemma sat_times {A} n (g : gen A) P : sat R s g P -> sat R s (times n g) (fun l => length l = n /\ Forall P l).
Proof.
  intros H. induction n as [|n IH]; cbn [times]; [apply sat_ret; split; [reflexivity|constructor]|].
  apply (sat_bind _ _ _ _ H). intros a Ha. apply (sat_bind _ _ _ _ IH). intros l (HL & HF). apply sat_ret.
  split; [cbn [length]; lia|constructor; assumption].
Qed.
Lemma sat_map {A B} (f : A -> gen B) (P : A -> B -> Prop) l : (forall a, In a l -> sat R s (f a) (P a)) -> sat R s (mapG f l) (Forall2 P l).
Proof.
  induction l as [|a l IH]; intros H; cbn [mapG]; [apply sat_ret; constructor|].
  apply (sat_bind _ _ _ _ (H a (or_introl eq_refl))). intros b Hb.
  apply (sat_bind _ _ _ _ (IH (fun a' Ha => H a' (or_intror Ha)))). intros bs Hbs. apply sat_ret. constructor; assumption.
Qed.
Lemma sat_loop {A} (I : nat -> A -> Prop) f n : (forall k a, (k < n)%nat -> I k a -> sat R s (f a) (I (S k))) ->
  forall m k a, (k + m = n)%nat -> I k a -> sat R s (loopG m f a) (I n).
Proof.
  intros H m. induction m as [|m IH]; intros k a E HI; cbn [loopG].
  - apply sat_ret. replace n with k by lia. exact HI.
  - apply (sat_bind _ _ _ _ (H k a ltac:(lia) HI)). intros b Hb. apply (IH (S k) b ltac:(lia) Hb).
Qed.
(** the while loop *)
Lemma sat_place fuel accept lo hi : R -> (lo < hi)%nat ->
  sat R s (place fuel accept lo hi) (fun q => (lo <= fst q < hi /\ lo <= snd q < hi)%nat /\ accept (fst q) (snd q) = true).
Proof.
  intros HR H. induction fuel as [|fuel IH]; cbn [place]; [intros p; exact HR|].
  apply (sat_bind _ _ _ _ (sat_randint2 lo hi H)). intros q Hq. destruct (accept (fst q) (snd q)) eqn:E; [|exact IH].
  apply sat_ret. split; assumption.
Qed.
End Sat.

Lemma place_first fuel accept lo hi s : (lo < hi)%nat ->
  forall p q, (q < fuel)%nat -> accept (lo + s (p + 2 * q) mod (hi - lo))%nat (lo + s (p + 2 * q + 1) mod (hi - lo))%nat = true ->
  exists tl p', place fuel accept lo hi s p = Done tl p' /\ (lo <= fst tl < hi /\ lo <= snd tl < hi)%nat /\ accept (fst tl) (snd tl) = true.
Proof.
  intros H. induction fuel as [|fuel IH]; intros p q Hq HA; [lia|]. cbn [place].
  unfold gbind, randint2, randint, gbind, gret. rewrite (proj2 (Nat.ltb_lt _ _) H). cbn [fst snd].
  assert (B := fun i => Nat.mod_upper_bound (s i) (hi - lo)).
  destruct (accept (lo + s p mod (hi - lo))%nat (lo + s (S p) mod (hi - lo))%nat) eqn:E.
  - exists (lo + s p mod (hi - lo), lo + s (S p) mod (hi - lo))%nat, (S (S p)). split; [reflexivity|]. cbn [fst snd].
    assert (B1 := B p). assert (B2 := B (S p)). split; [lia|exact E].
  - destruct q as [|q].
    + exfalso. replace (p + 2 * 0)%nat with p in HA by lia. replace (p + 1)%nat with (S p) in HA by lia. congruence.
    + apply (IH (S (S p)) q ltac:(lia)). replace (S (S p) + 2 * q)%nat with (p + 2 * S q)%nat by lia. exact HA.
Qed.
Lemma sat_place_fair fuel accept lo hi s : (lo < hi)%nat -> fair fuel (hi - lo) s ->
  (exists t l, (lo <= t < hi)%nat /\ (lo <= l < hi)%nat /\ accept t l = true) ->
  sat False s (place fuel accept lo hi) (fun q => (lo <= fst q < hi /\ lo <= snd q < hi)%nat /\ accept (fst q) (snd q) = true).
Proof.
  intros H F (t & l & Ht & Hl & HA) p.
  destruct (F p (t - lo)%nat (l - lo)%nat ltac:(lia) ltac:(lia)) as (q & Hq & E1 & E2).
  destruct (place_first fuel accept lo hi s H p q Hq) as (tl & p' & E & B).
  - rewrite E1, E2. replace (lo + (t - lo))%nat with t by lia. replace (lo + (l - lo))%nat with l by lia. exact HA.
  - rewrite E. exact B.
Qed.
Lemma place_never fuel accept lo hi s p : (lo < hi)%nat ->
  (forall t l, (lo <= t < hi)%nat -> (lo <= l < hi)%nat -> accept t l = false) -> place fuel accept lo hi s p = Running.
Proof.
  intros H HA. revert p. induction fuel as [|fuel IH]; intros p; cbn [place]; [reflexivity|].
  unfold gbind, randint2, randint, gbind, gret. rewrite (proj2 (Nat.ltb_lt _ _) H). cbn [fst snd].
  assert (B := fun i => Nat.mod_upper_bound (s i) (hi - lo)).
  rewrite HA; [apply IH| |]; [assert (Q := B p)|assert (Q := B (S p))]; lia.
Qed.

(** ** flips and codes *)
Lemma flips_fold (l : list (nat * nat * nat)) (y : nat -> nat -> nat) v :
  Forall (fun p => snd p < v)%nat l ->
  let f := fold_left (fun im p => set_at (just (fst (fst p))) (just (snd (fst p))) (snd p) im) l y in
  forall i j, f i j = y i j \/ In (i, j) (map fst l) /\ (f i j < v)%nat.
Proof.
  revert y. induction l as [|[[a b] u] l IH]; intros y H f i j.
  - left. reflexivity.
  - cbn [map]. destruct (IH (set_at (just a) (just b) u y) (Forall_inv_tail H) i j) as [E|[E1 E2]].
    + change (f i j = set_at (just a) (just b) u y i j) in E. unfold set_at, just in E.
      destruct (Nat.eqb_spec a i) as [->|N]; [|left; exact E]. destruct (Nat.eqb_spec b j) as [->|N]; [|left; exact E].
      right. split; [left; reflexivity|]. rewrite E. exact (Forall_inv H).
    + right. split; [right; exact E1|exact E2].
Qed.
Lemma sat_flip R s lo hi v noise y : (lo < hi)%nat -> (0 < v)%nat ->
  sat R s (flip lo hi v noise y) (fun f => exists l, (length l <= noise)%nat /\ (forall i j, f i j = y i j \/ In (i, j) l /\ (f i j < v)%nat)).
Proof.
  intros H Hv. unfold flip. apply (sat_bind _ _ _ _ (fun _ => True)); [apply sat_ensure; [apply Nat.ltb_lt; exact H|exact I]|]. intros _ _.
  apply (sat_bind _ _ _ _ _ _ (sat_times _ _ noise _ _ (sat_randint2 R s lo hi H))). intros fl [LF _].
  apply (sat_bind _ _ _ _ _ _ (sat_times _ _ noise _ _ (sat_randint R s 0 v Hv))). intros vs [LV HV]. apply sat_ret.
  exists (map fst (combine fl vs)). split. { rewrite map_length, combine_length. lia. }
  apply flips_fold. apply Forall_forall. intros [p u] Hp. apply in_combine_r in Hp. rewrite Forall_forall in HV. cbn [snd]. apply (HV u Hp).
Qed.
Lemma encode_ok h w c ms y : (forall i j m, (i < h)%nat -> (j < w)%nat -> In m ms -> (m * y i j < c)%nat) ->
  encode h w c ms y = Ok (grid_of h w c (fun i j k => if existsb (fun m => m * y i j =? k)%nat ms then 1 else 0)).
Proof.
  intros H. unfold encode. replace (forallb _ (seq 0 h)) with true; [reflexivity|]. symmetry.
  apply forallb_forall. intros i Hi. apply forallb_forall. intros j Hj. apply forallb_forall. intros m Hm. apply Nat.ltb_lt.
  apply in_seq in Hi. apply in_seq in Hj. apply H; [lia|lia|exact Hm].
Qed.

(** the tail of the generators *)
Lemma sat_observe R s size c ms base lo hi v noise Ys :
  (lo < hi)%nat -> (0 < v)%nat -> (forall m u, In m ms -> (u < v)%nat -> (m * u < c)%nat) ->
  (forall y, In y Ys -> forall i j, (i < size)%nat -> (j < size)%nat -> (base (y i j) < v)%nat) ->
  sat R s (observe size c ms base lo hi v noise Ys)
    (fun D => Forall2 (fun y xy => shaped size size c xy /\ labelled size size xy y /\
       noisy_view size size c v noise base (fun u => map (fun m => m * u)%nat ms) xy) Ys D).
Proof.
  intros H Hv Hms HY. unfold observe.
  set (P := fun (y f : nat -> nat -> nat) => (forall i j, (i < size)%nat -> (j < size)%nat -> f i j < v)%nat /\ exists l, (length l <= noise)%nat /\
    (forall i j, f i j = base (y i j) \/ In (i, j) l /\ (f i j < v)%nat)).
  assert (HP : forall y, In y Ys -> sat R s (flip lo hi v noise (fun i j => base (y i j))) (P y)).
  { intros y Hy. apply (sat_weaken R s _ _ _ (sat_flip R s lo hi v noise (fun i j => base (y i j)) H Hv)).
    intros f (l & HL & HF). split; [intros i j Hi Hj; destruct (HF i j) as [->|[_ E]]; [exact (HY y Hy i j Hi Hj)|exact E]|exists l; split; assumption]. }
  apply (sat_bind _ _ _ _ _ _ (sat_map R s _ P Ys HP)).
  intros Yf HYf.
  assert (E : exists Xs, mapM (encode size size c ms) Yf = Ok Xs /\
      Forall2 (fun f x => x = grid_of size size c (fun i j k => if existsb (fun m => m * f i j =? k)%nat ms then 1 else 0)) Yf Xs).
  { clear HY HP. induction HYf as [|y f Ys' Yf' [B _] _ IH]; [exists []; split; [reflexivity|constructor]|].
    destruct IH as (Xs & E & F). cbn [mapM]. rewrite (encode_ok size size c ms f) by (intros i j m Hi Hj Hm; apply Hms; [exact Hm|apply B; assumption]).
    cbn [bind]. rewrite E. cbn [bind]. eexists. split; [reflexivity|]. constructor; [reflexivity|exact F]. }
  destruct E as (Xs & E & F). apply (sat_bind _ _ _ _ (fun Xs' => Xs' = Xs) _ (sat_lift _ _ _ _ _ E eq_refl)). intros ? ->.
  apply sat_ret. clear E HY HP. revert Xs F. induction HYf as [|y f Ys' Yf' [B (l & HL & HF)] _ IH]; intros Xs F.
  - inversion F. constructor.
  - inversion F as [|? x ? Xs' Ex F']. cbn [map combine]. constructor; [|apply IH; exact F'].
    split; [rewrite Ex; apply shaped_of|]. split; [intros i j Hi Hj; apply pixel_labels; assumption|].
    exists l, f. split; [exact HL|]. split.
    + intros i j Hi Hj. cbn [snd]. rewrite pixel_labels by assumption. apply HF.
    + intros i j k Hi Hj Hk. cbn [fst]. rewrite Ex, channel_grid by assumption.
      replace (existsb (Nat.eqb k) (map (fun m => m * f i j)%nat ms)) with (existsb (fun m => m * f i j =? k)%nat ms); [reflexivity|].
      clear. induction ms as [|m ms IH]; [reflexivity|]. cbn [existsb map]. rewrite IH, Nat.eqb_sym. reflexivity.
Qed.
