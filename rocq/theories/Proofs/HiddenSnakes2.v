(** Proofs about the functions that distort, add and shorten snakes. *)
From Coq Require Import ZArith Lia.
From Verif Require Import Spec.HiddenSnakesSpec Proofs.Arrays Proofs.GridProofs Proofs.Snakes Proofs.HiddenSnakes.

(** ** one changed pixel *)
Lemma copy_pixel_ok p a b : recoloured p (copy_pixel p a b) a b.
Proof.
  repeat split. intros i j c Hi Hj Hc. unfold copy_pixel. rewrite aget_atab by assumption. reflexivity.
Qed.
Lemma pixel_neq_false p a b : pixel_neq p a b = false <-> same_colour p a b.
Proof.
  unfold pixel_neq, same_colour. rewrite <- not_true_iff_false, existsb_exists. split.
  - intros H c Hc. destruct (Qc_eq_dec (aget p (fst a) (snd a) c) (aget p (fst b) (snd b) c)) as [E|E]; [exact E|].
    exfalso. apply H. exists c. split; [apply in_seq; lia|]. apply negb_true_iff, Qceqb_neq, E.
  - intros H [c [Hc E]]. apply in_seq in Hc. apply negb_true_iff, Qceqb_neq in E. apply E, H. lia.
Qed.
Lemma pixel_neq_true p a b : pixel_neq p a b = true <-> ~ same_colour p a b.
Proof. rewrite <- pixel_neq_false. destruct (pixel_neq p a b); split; congruence. Qed.

Lemma attempts_ok p l a draws : Forall (fun d => (d < length l)%nat) draws ->
  exists q, attempts p l a draws = Ok q /\
    ((exists k d b, nth_error draws k = Some d /\ nth_error l d = Some b /\ ~ same_colour p a b /\ q = copy_pixel p a b /\
        forall k' d' b', (k' < k)%nat -> nth_error draws k' = Some d' -> nth_error l d' = Some b' -> same_colour p a b') \/
     (q = p /\ forall d b, In d draws -> nth_error l d = Some b -> same_colour p a b)).
Proof.
  induction draws as [|d draws IH]; intro H; cbn [attempts].
  - exists p. split; [reflexivity|]. right. split; [reflexivity|]. intros d b [].
  - inversion H as [|? ? Hd Hds]; subst. unfold index.
    destruct (nth_error l d) as [b|] eqn:Eb; [|apply nth_error_None in Eb; lia]. cbn [bind].
    destruct (pixel_neq p a b) eqn:E.
    + apply pixel_neq_true in E. eexists. split; [reflexivity|]. left. exists 0%nat, d, b.
      split; [reflexivity|]. split; [exact Eb|]. split; [exact E|]. split; [reflexivity|]. intros k' d' b' K. lia.
    + apply pixel_neq_false in E. destruct (IH Hds) as [q [Eq [[k [d' [b' [K1 [K2 [K3 [K4 K5]]]]]]]|[K1 K2]]]]; exists q; (split; [exact Eq|]).
      * left. exists (S k), d', b'. split; [exact K1|]. split; [exact K2|]. split; [exact K3|]. split; [exact K4|].
        intros [|k'] d2 b2 L N1 N2; [cbn in N1; injection N1 as <-; rewrite Eb in N2; injection N2 as <-; exact E|].
        exact (K5 k' d2 b2 ltac:(lia) N1 N2).
      * right. split; [exact K1|]. intros d' b' [<-|I] N; [rewrite Eb in N; injection N as <-; exact E|exact (K2 d' b' I N)].
Qed.

Definition hot_of (bOneHot : bool) (p : arr3) : res arr3 :=
  if bOneHot then let! _ := ensure (4 <=? a_c p)%nat IndexError in Ok p else one_hot_colors p.
Lemma hot_of_shown b p hot : shown b p hot -> (4 <= a_c hot)%nat -> hot_of b p = Ok hot.
Proof.
  unfold shown, hot_of. destruct b; [|auto]. intros -> H. apply Nat.leb_le in H. rewrite H. reflexivity.
Qed.
(** [l]: the coloured cells in row-major order *)
Lemma change_ok : forall (b : bool) (p hot : arr3) (n : nat) (draws : nat -> nat),
  shown b p hot -> (4 <= a_c hot)%nat -> length (cells hot) = n -> (forall k, (draws k < n)%nat) ->
  exists q a, changeOneSnakeCell p b n draws = Ok q /\ nth_error (cells hot) (draws 0%nat) = Some a /\
    ((exists k c, (1 <= k <= 10)%nat /\ nth_error (cells hot) (draws k) = Some c /\ ~ same_colour p a c /\ q = copy_pixel p a c /\
        forall k' c', (1 <= k' < k)%nat -> nth_error (cells hot) (draws k') = Some c' -> same_colour p a c') \/
     (q = p /\ forall k c, (1 <= k <= 10)%nat -> nth_error (cells hot) (draws k) = Some c -> same_colour p a c)).
Proof.
  intros b p hot n draws HS HC HL HD. unfold changeOneSnakeCell. change (if b then _ else one_hot_colors p) with (hot_of b p).
  rewrite (hot_of_shown b p hot HS HC). cbn [bind]. rewrite HL, Nat.eqb_refl. cbn [ensure bind].
  assert (N : n <> 0%nat) by (specialize (HD 0%nat); lia). apply Nat.eqb_neq in N. rewrite N. cbn [negb ensure bind].
  unfold index. destruct (nth_error (cells hot) (draws 0%nat)) as [a|] eqn:Ea.
  2:{ apply nth_error_None in Ea. specialize (HD 0%nat). lia. }
  cbn [bind]. destruct (attempts_ok p (cells hot) a (map draws (seq 1 10))) as [q [Eq K]].
  { apply Forall_forall. intros d Hd. apply in_map_iff in Hd. destruct Hd as [k [<- _]]. rewrite HL. apply HD. }
  assert (NE : forall k, (k < 10)%nat -> nth_error (map draws (seq 1 10)) k = Some (draws (S k))).
  { intros k Hk. rewrite nth_error_map. rewrite (nth_error_nth' (seq 1 10) 0%nat) by (rewrite seq_length; exact Hk).
    rewrite seq_nth by exact Hk. reflexivity. }
  exists q, a. split; [exact Eq|]. split; [reflexivity|].
  destruct K as [[k [d [c [K1 [K2 [K3 [K4 K5]]]]]]]|[K1 K2]].
  - left. assert (Hk : (k < 10)%nat). { assert (K0 : nth_error (map draws (seq 1 10)) k <> None) by congruence. apply nth_error_Some in K0. clear K1. rename K0 into K1. rewrite map_length, seq_length in K1. exact K1. }
    rewrite NE in K1 by exact Hk. injection K1 as K1. subst d. exists (S k), c. split; [lia|]. split; [exact K2|]. split; [exact K3|].
    split; [exact K4|]. intros k' c' Hk' Ec'. destruct k' as [|k']; [lia|]. exact (K5 k' _ c' ltac:(lia) (NE k' ltac:(lia)) Ec').
  - right. split; [exact K1|]. intros k c Hk Ec. apply (K2 (draws k) c); [|exact Ec]. apply in_map, in_seq. lia.
Qed.
Lemma change_errors : forall (b : bool) (p hot : arr3) (n : nat) (draws : nat -> nat),
  shown b p hot -> (4 <= a_c hot)%nat ->
  (length (cells hot) <> n -> changeOneSnakeCell p b n draws = Err AssertionError) /\
  (length (cells hot) = n -> n = 0%nat -> changeOneSnakeCell p b n draws = Err ValueError).
Proof.
  intros b p hot n draws HS HC. unfold changeOneSnakeCell. change (if b then _ else one_hot_colors p) with (hot_of b p).
  rewrite (hot_of_shown b p hot HS HC). cbn [bind]. split.
  - intro H. apply Nat.eqb_neq in H. rewrite H. reflexivity.
  - intros -> ->. reflexivity.
Qed.

Lemma Ok_inj {A} (a b : A) : Ok a = Ok b -> a = b.
Proof. intro H. congruence. Qed.

(** ** what a changed pixel keeps *)
Lemma recoloured_coloured p q a b : (4 <= a_c p)%nat -> coloured p a -> coloured p b -> recoloured p q a b ->
  forall x, coloured q x <-> coloured p x.
Proof.
  intros HC Ha Hb [R1 [R2 [_ R]]] [i j]. unfold coloured in *. rewrite R1, R2. cbn [fst snd].
  split; intros [Hi [Hj H]]; (split; [exact Hi|]; split; [exact Hj|]); rewrite R in *; try assumption; try lia;
    destruct (Nat.eqb_spec i (fst a)) as [->|Ni]; cbn [andb] in *; try assumption;
    destruct (Nat.eqb_spec j (snd a)) as [->|Nj]; try assumption; tauto.
Qed.
Lemma recoloured_one_hot p q a b : coloured p b -> recoloured p q a b -> one_hot_picture p -> one_hot_picture q.
Proof.
  intros [Hbi [Hbj _]] [R1 [R2 [R3 R]]] [HC H]. split; [congruence|]. rewrite R1, R2. intros i j Hi Hj.
  destruct (((i =? fst a) && (j =? snd a))%nat) eqn:E.
  - destruct (H _ _ Hbi Hbj) as [c [C5 [E1 U]]]. exists c. split; [exact C5|].
    rewrite R, E by lia. split; [exact E1|]. intros c' Hc' N. rewrite R, E by lia. exact (U c' Hc' N).
  - destruct (H _ _ Hi Hj) as [c [C5 [E1 U]]]. exists c. split; [exact C5|].
    rewrite R, E by lia. split; [exact E1|]. intros c' Hc' N. rewrite R, E by lia. exact (U c' Hc' N).
Qed.
Lemma recoloured_framed p q a b : (4 <= a_c p)%nat -> coloured p a -> framed p -> recoloured p q a b -> framed q.
Proof.
  intros HC Ha HF [R1 [R2 [_ R]]] i j. rewrite R1, R2. intros Hi Hj B. rewrite R by lia.
  destruct (Nat.eqb_spec i (fst a)) as [->|Ni]; cbn [andb]; [|apply HF; assumption].
  destruct (Nat.eqb_spec j (snd a)) as [->|Nj]; [|apply HF; assumption].
  exfalso. destruct Ha as [_ [_ Ha]]. apply Ha, HF; assumption.
Qed.
(** recolouring a picture recolours its one-hot version *)
Lemma color_code_ext p q i j i' j' : (forall c, (c < 3)%nat -> aget q i j c = aget p i' j' c) -> color_code q i j = color_code p i' j'.
Proof. intro H. unfold color_code. apply sumn_ext. intros c Hc. rewrite H by exact Hc. reflexivity. Qed.
Lemma one_hot_inv p hot : one_hot_colors p = Ok hot -> a_c p = 3%nat /\ a_h hot = a_h p /\ a_w hot = a_w p /\ a_c hot = 5%nat /\
  (forall i j, (i < a_h p)%nat -> (j < a_w p)%nat -> is_int (color_code p i j) = true) /\
  forall i j c, (i < a_h p)%nat -> (j < a_w p)%nat -> (c < 5)%nat ->
    aget hot i j c = ind (Qceqb (color_code p i j) (ofN (nth c color_classes O))).
Proof.
  unfold one_hot_colors. destruct (Nat.eqb_spec (a_h p * a_w p) 0) as [E|E]; cbn [orb]; [discriminate|].
  destruct (Nat.eqb_spec (a_c p) 3) as [E3|E3]; cbn [negb]; [|discriminate].
  match goal with |- context [ensure ?b _] => destruct b eqn:EB end; cbn [ensure bind]; [|discriminate].
  intro H. apply Ok_inj in H. subst hot. split; [exact E3|]. split; [reflexivity|]. split; [reflexivity|]. split; [reflexivity|]. split.
  - intros i j Hi Hj. rewrite forallb_forall in EB. specialize (EB i ltac:(apply in_seq; lia)). rewrite forallb_forall in EB.
    apply EB, in_seq. lia.
  - intros i j c Hi Hj Hc. apply aget_atab; assumption.
Qed.
Lemma recoloured_shown p q hot a b : one_hot_colors p = Ok hot -> coloured hot b -> recoloured p q a b ->
  exists hot', one_hot_colors q = Ok hot' /\ recoloured hot hot' a b.
Proof.
  intros E [Hbi [Hbj _]] [R1 [R2 [R3 R]]]. assert (E0 := E). apply one_hot_inv in E. destruct E as [C3 [Eh [Ew [Ec [Int G]]]]].
  rewrite Eh in Hbi. rewrite Ew in Hbj.
  assert (CC : forall i j, (i < a_h p)%nat -> (j < a_w p)%nat ->
     color_code q i j = if ((i =? fst a) && (j =? snd a))%nat then color_code p (fst b) (snd b) else color_code p i j).
  { intros i j Hi Hj. assert (K := R i j). destruct ((i =? fst a)%nat && (j =? snd a)%nat);
      apply color_code_ext; intros c Hc; apply K; (assumption || lia). }
  unfold one_hot_colors in E0 |- *. rewrite R1, R2, R3.
  destruct (((a_h p * a_w p =? 0) || negb (a_c p =? 3))%nat); [discriminate|].
  match goal with |- context [ensure ?b _] => replace b with true end.
  - cbn [ensure bind]. eexists. split; [reflexivity|].
    repeat split; cbn [atab a_h a_w a_c]; try congruence. intros i j c. rewrite Eh, Ew, Ec. intros Hi Hj Hc.
    rewrite aget_atab by assumption. rewrite CC by assumption.
    destruct ((i =? fst a)%nat && (j =? snd a)%nat); rewrite G by assumption; reflexivity.
  - symmetry. apply forallb_forall. intros i Hi. apply forallb_forall. intros j Hj. apply in_seq in Hi, Hj.
    rewrite CC by lia. destruct ((i =? fst a)%nat && (j =? snd a)%nat); apply Int; lia || assumption.
Qed.

(** ** counting *)
Lemma cells_NoDup p : NoDup (cells p).
Proof.
  unfold cells. apply NoDup_filter.
  assert (K : forall (l1 l2 : list nat), NoDup l1 -> NoDup l2 -> NoDup (list_prod l1 l2)).
  { intros l1 l2 H1 H2. induction H1 as [|x l1 Hx H1 IH]; cbn [list_prod]; [constructor|].
    assert (D : forall l : list (nat * nat), NoDup l -> (forall y, In y l -> fst y <> x) -> NoDup (map (fun y => (x, y)) l2 ++ l)).
    { intros l Hl Hn. clear - H2 Hl Hn. induction H2 as [|y l2 Hy H2 IH]; cbn [map app]; [exact Hl|]. constructor; [|exact IH].
      rewrite in_app_iff, in_map_iff. intros [[z [E Hz]]|K]; [injection E as <-; contradiction|]. exact (Hn _ K eq_refl). }
    apply D; [exact IH|]. intros [y z] Hy E. cbn in E. subst y. apply in_prod_iff in Hy. tauto. }
  apply K; apply seq_NoDup.
Qed.
Lemma count_cells p n : coloured_count p n <-> length (cells p) = n.
Proof.
  split.
  - intros [l [N [L H]]]. apply Nat.le_antisymm; rewrite <- L || rewrite <- L at 1.
    + apply NoDup_incl_length; [apply cells_NoDup|]. intros a Ha. apply H, in_cells, Ha.
    + apply NoDup_incl_length; [exact N|]. intros a Ha. apply in_cells, H, Ha.
  - intro L. exists (cells p). split; [apply cells_NoDup|]. split; [exact L|]. apply in_cells.
Qed.
Lemma count_same p q n : (forall x, coloured q x <-> coloured p x) -> coloured_count p n -> coloured_count q n.
Proof. intros E [l [N [L H]]]. exists l. split; [exact N|]. split; [exact L|]. intro a. rewrite E. apply H. Qed.

(** a changed picture is one of the same kind *)
Lemma change_kind b n x hot draws : snake_picture b n x hot -> (forall k, (draws k < n)%nat) ->
  exists x' hot', changeOneSnakeCell x b n draws = Ok x' /\ changed b n x hot x' hot'.
Proof.
  intros [HS [HO [HF HC]]] HD. assert (H5 := proj1 HO).
  assert (HL := HC). apply count_cells in HL.
  destruct (change_ok b x hot n draws HS ltac:(lia) HL HD) as [q [a [E [Ea K]]]].
  assert (Ca : coloured hot a) by (apply in_cells; exact (nth_error_In _ _ Ea)).
  destruct K as [[k [c [_ [Ec [N [-> _]]]]]]|[-> _]].
  - assert (Cc : coloured hot c) by (apply in_cells; exact (nth_error_In _ _ Ec)).
    assert (R := copy_pixel_ok x a c).
    assert (SH : exists hot', shown b (copy_pixel x a c) hot' /\ recoloured hot hot' a c).
    { destruct b; cbn in HS |- *; [subst hot; eexists; split; [reflexivity|exact R]|].
      exact (recoloured_shown x _ hot a c HS Cc R). }
    destruct SH as [hot' [S' R']]. exists (copy_pixel x a c), hot'. split; [exact E|]. split.
    + split; [exact S'|]. split; [exact (recoloured_one_hot hot hot' a c Cc R' HO)|].
      split; [exact (recoloured_framed hot hot' a c ltac:(lia) Ca HF R')|].
      exact (count_same hot hot' n (recoloured_coloured hot hot' a c ltac:(lia) Ca Cc R') HC).
    + right. exists a, c. auto.
  - exists x, hot. split; [exact E|]. split; [repeat (split; [assumption|]); exact HC|left; auto].
Qed.

(** ** adding distorted pictures *)
Lemma nth_error_combine {A B} (la : list A) : forall (lb : list B) i a b,
  nth_error la i = Some a -> nth_error lb i = Some b -> nth_error (combine la lb) i = Some (a, b).
Proof.
  induction la as [|x la IH]; intros [|y lb] [|i] a b Ha Hb; try discriminate; cbn in *; [congruence|]. apply IH; assumption.
Qed.
Lemma nth_error_combine_inv {A B} (la : list A) : forall (lb : list B) i a b,
  nth_error (combine la lb) i = Some (a, b) -> nth_error la i = Some a /\ nth_error lb i = Some b.
Proof.
  induction la as [|x la IH]; intros [|y lb] [|i] a b H; try discriminate; cbn in *; [split; congruence|]. apply IH; assumption.
Qed.
Lemma distort_ok b n draws : (forall k d, (draws k d < n)%nat) -> forall X H k, Forall2 (snake_picture b n) X H ->
  exists X' H', distort_all b n draws k X = Ok X' /\ length X' = length X /\ length H' = length X /\
    forall m x hot, nth_error X m = Some x -> nth_error H m = Some hot ->
      exists x' hot', nth_error X' m = Some x' /\ nth_error H' m = Some hot' /\ changed b n x hot x' hot'.
Proof.
  intros HD X H k F. revert k. induction F as [|x hot X H P F IH]; intro k; cbn [distort_all].
  - exists [], []. repeat split. intros [|m] x hot E; discriminate E.
  - destruct (change_kind b n x hot (draws k) P (HD k)) as [x' [hot' [E C]]]. rewrite E. cbn [bind].
    destruct (IH (S k)) as [X' [H' [E' [L [LH K]]]]]. rewrite E'. cbn [bind]. exists (x' :: X'), (hot' :: H').
    split; [reflexivity|]. cbn [length]. split; [congruence|]. split; [congruence|]. intros [|m] y hoty Ey Eh.
    + injection Ey as <-. injection Eh as <-. exists x', hot'. auto.
    + exact (K m y hoty Ey Eh).
Qed.
Lemma copies_length {A} n (l : list A) : length (copies n l) = (n * length l)%nat.
Proof. induction n; cbn [copies]; [reflexivity|]. rewrite app_length, IHn. reflexivity. Qed.
Lemma copies_Forall2 {A B} (R : A -> B -> Prop) n X Y : Forall2 R X Y -> Forall2 R (copies n X) (copies n Y).
Proof. intro H. induction n; cbn [copies]; [constructor|]. apply Forall2_app; assumption. Qed.
Lemma copies_In {A} n (l : list A) a : In a (copies n l) -> In a l.
Proof. induction n; cbn [copies]; [intros []|]. rewrite in_app_iff. tauto. Qed.

(** the new pictures in order: [keep] says which copies have no snake of ten cells *)
Lemma keep_ok b n XY H : length XY = length H -> (forall m x y hot, nth_error XY m = Some (x, y) -> nth_error H m = Some hot -> snake_picture b n x hot) ->
  exists r, keep_without b XY = Ok r /\ (length r <= length XY)%nat /\
    (forall x y, In (x, y) r -> exists m y0 hot, nth_error XY m = Some (x, y0) /\ nth_error H m = Some hot /\ ~ has_snake hot 10 /\ all_zero y0 y) /\
    (forall m x y0 hot, nth_error XY m = Some (x, y0) -> nth_error H m = Some hot -> ~ has_snake hot 10 -> exists y, In (x, y) r /\ all_zero y0 y) /\
    ((forall m hot, nth_error H m = Some hot -> ~ has_snake hot 10) -> map fst r = map fst XY).
Proof.
  revert H. induction XY as [|[x y] XY IH]; intros [|hot H] L P; try discriminate L; cbn [keep_without].
  - exists []. split; [reflexivity|]. split; [reflexivity|]. split; [intros x y []|]. split; [|reflexivity].
    intros [|m] x y hot E; discriminate E.
  - assert (SP := P 0%nat x y hot eq_refl eq_refl). destruct SP as [S [HO [HF _]]].
    replace (if b then Ok x else one_hot_colors x) with (Ok hot) by (destruct b; cbn in S; congruence). cbn [bind].
    destruct (present_even hot 10 HO HF eq_refl) as [c [E Hc]]. rewrite E. cbn [bind].
    destruct (IH H) as [r [Er [Lr [K1 [K2 K3]]]]].
    { injection L as L. exact L. }
    { intros m x0 y0 hot0 N1 N2. exact (P (Datatypes.S m) x0 y0 hot0 N1 N2). }
    rewrite Er. cbn [bind]. clear IH. destruct c.
    + exists r. split; [reflexivity|]. split; [cbn [length]; lia|].
      assert (HS : has_snake hot 10) by (apply Hc; reflexivity). split; [|split].
      * intros x0 y0 I. destruct (K1 x0 y0 I) as [m [y1 [hot1 K]]]. exists (Datatypes.S m), y1, hot1. exact K.
      * intros [|m] x0 y0 hot0 N1 N2 NS; [|exact (K2 m x0 y0 hot0 N1 N2 NS)].
        cbn in N2. injection N2 as <-. contradiction.
      * intro F. destruct (F 0%nat hot eq_refl HS).
    + assert (NS : ~ has_snake hot 10) by (intro K; apply Hc in K; discriminate K).
      assert (Z : all_zero y (zeros_like y)).
      { unfold all_zero, zeros_like, ltab. cbn [l_h l_w]. split; [reflexivity|]. split; [reflexivity|]. intros i j Hi Hj.
        unfold lget. cbn [l_dat]. rewrite (nth_map_seq (fun i => map (fun _ => 0%nat) (seq 0 (l_w y)))) by exact Hi.
        rewrite (nth_map_seq (fun _ => 0%nat)) by exact Hj. reflexivity. }
      exists ((x, zeros_like y) :: r). split; [reflexivity|]. split; [cbn [length]; lia|]. split; [|split].
      * intros x0 y0 [I|I].
        -- assert (x = x0) by congruence. assert (zeros_like y = y0) by congruence. subst x0 y0. exists 0%nat, y, hot. auto.
        -- destruct (K1 x0 y0 I) as [m [y1 [hot1 K]]]. exists (Datatypes.S m), y1, hot1. exact K.
      * intros [|m] x0 y0 hot0 N1 N2 NS0.
        -- cbn in N1. assert (x = x0) by congruence. assert (y = y0) by congruence. subst x0 y0.
           exists (zeros_like y). split; [left; reflexivity|exact Z].
        -- destruct (K2 m x0 y0 hot0 N1 N2 NS0) as [y1 [I Z1]]. exists y1. split; [right; exact I|exact Z1].
      * intro F. cbn [map fst]. f_equal. apply K3. intros m hot0 N. exact (F (Datatypes.S m) hot0 N).
Qed.

Lemma few_cells p n m : coloured_count p n -> (n < m)%nat -> ~ has_snake p m.
Proof.
  intros [l [N [L H]]] Hn [s [Ls [Ns As]]].
  assert (K : incl s l).
  { intros a Ha. apply H. clear - As Ha. induction As as [b Hb|b c s Hb _ _ IH].
    - destruct Ha as [<-|[]]. exact Hb.
    - destruct Ha as [<-|Ha]; [exact Hb|exact (IH Ha)]. }
  assert (K' := NoDup_incl_length Ns K). lia.
Qed.

Lemma augment_ok : forall (b : bool) (iMult nCell : nat) (draws : nat -> nat -> nat) (X H : list arr3) (Y : list lab2),
  Forall2 (snake_picture b nCell) X H -> length Y = length X -> (forall k d, (draws k d < nCell)%nat) ->
  exists newX newY, augmentWithNoSnakeImages X Y b iMult nCell draws = Ok (length newX, X ++ newX, Y ++ newY) /\
    length newY = length newX /\ (length newX <= iMult * length X)%nat /\
    (forall x', In x' newX -> exists x hot hot', In (x, hot) (combine X H) /\ changed b nCell x hot x' hot' /\ ~ has_snake hot' 10) /\
    (forall y', In y' newY -> exists y, In y Y /\ all_zero y y') /\
    ((nCell < 10)%nat -> length newX = (iMult * length X)%nat).
Proof.
  intros b iMult nCell draws X H Y F LY HD. unfold augmentWithNoSnakeImages.
  assert (FC := copies_Forall2 _ iMult _ _ F). assert (LXH : length X = length H) by (clear - F; induction F; cbn [length]; congruence).
  destruct (distort_ok b nCell draws HD _ _ 0 FC) as [X' [H' [E [L [LH K]]]]]. rewrite E. cbn [bind].
  rewrite copies_length in L, LH.
  assert (LC : length (combine X' (copies iMult Y)) = (iMult * length X)%nat).
  { rewrite combine_length, L, copies_length, LY. lia. }
  assert (ALL : forall m x' hot', nth_error X' m = Some x' -> nth_error H' m = Some hot' ->
     exists x hot, In (x, hot) (combine X H) /\ changed b nCell x hot x' hot').
  { intros m x' hot' N1 N2.
    assert (Hm : (m < iMult * length X)%nat) by (rewrite <- L; apply nth_error_Some; congruence).
    destruct (nth_error (copies iMult X) m) as [x|] eqn:Ex; [|apply nth_error_None in Ex; rewrite copies_length in Ex; lia].
    destruct (nth_error (copies iMult H) m) as [hot|] eqn:Eh; [|apply nth_error_None in Eh; rewrite copies_length in Eh; lia].
    destruct (K m x hot Ex Eh) as [x2 [hot2 [E1 [E2 C]]]]. rewrite N1 in E1. rewrite N2 in E2.
    assert (x2 = x') by congruence. assert (hot2 = hot') by congruence. subst x2 hot2. exists x, hot. split; [|exact C].
    apply (copies_In iMult).
    assert (CC : forall n, copies n (combine X H) = combine (copies n X) (copies n H)).
    { clear - LXH. intro n. induction n as [|n IH]; cbn [copies]; [reflexivity|]. rewrite IH. symmetry. apply combine_app. exact LXH. }
    rewrite CC. apply (nth_error_In _ m). apply nth_error_combine; assumption. }
  destruct (keep_ok b nCell (combine X' (copies iMult Y)) H') as [r [Er [Lr [K1 [K2 K3]]]]].
  - congruence.
  - intros m x y hot N1 N2. apply nth_error_combine_inv in N1. destruct N1 as [N1 _].
    destruct (ALL m x hot N1 N2) as [x0 [hot0 [_ C]]]. exact (proj1 C).
  - rewrite Er. cbn [bind]. exists (map fst r), (map snd r). rewrite !map_length.
    split; [reflexivity|]. split; [reflexivity|]. split; [lia|]. split; [|split].
    + intros x' I. apply in_map_iff in I. destruct I as [[x1 y1] [<- I]]. cbn [fst].
      destruct (K1 x1 y1 I) as [m [y0 [hot' [N1 [N2 [NS _]]]]]]. apply nth_error_combine_inv in N1. destruct N1 as [N1 _].
      destruct (ALL m x1 hot' N1 N2) as [x [hot [I0 C]]]. exists x, hot, hot'. auto.
    + intros y' I. apply in_map_iff in I. destruct I as [[x1 y1] [<- I]]. cbn [snd].
      destruct (K1 x1 y1 I) as [m [y0 [hot' [N1 [_ [_ Z]]]]]]. apply nth_error_combine_inv in N1. destruct N1 as [_ N1].
      exists y0. split; [|exact Z]. apply (copies_In iMult), (nth_error_In _ _ N1).
    + intro Hn. rewrite <- (map_length fst), K3, map_length; [exact LC|]. intros m hot' N2.
      assert (Hm : (m < iMult * length X)%nat) by (rewrite <- LH; apply nth_error_Some; congruence).
      destruct (nth_error X' m) as [x'|] eqn:Ex; [|apply nth_error_None in Ex; lia].
      destruct (ALL m x' hot' Ex N2) as [x [hot [_ [[_ [_ [_ C]]] _]]]]. exact (few_cells hot' nCell 10 C Hn).
Qed.
