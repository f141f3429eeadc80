From Coq Require Import ZArith.
From Verif Require Import Spec.DatasetSpec Model.Initialize Proofs.Arrays Proofs.LossProofs Proofs.InitializeProofs Proofs.DatasetProofs Proofs.DatasetProofs3 Proofs.DatasetProofs4.

(** ** 2x2 *)
Lemma simple_data s p n_flips n :
  exists D q, make_simple_2x2 n_flips n s p = Done D q /\ length D = n /\
  Forall (fun xy : list Z * list nat => length (fst xy) = 16%nat /\ length (snd xy) = 16%nat /\
    (exists t l, (t = 0 \/ t = 2)%nat /\ (l = 0 \/ l = 2)%nat /\ forall i j, (i < 4)%nat -> (j < 4)%nat -> pixel 4 (snd xy) i j = if in_box 2 2 t l i j then 1%nat else 0%nat) /\
    (exists flipped, (length flipped <= n_flips)%nat /\ forall i j, (i < 4)%nat -> (j < 4)%nat ->
       nth (i * 4 + j) (fst xy) 0%Z = (if (pixel 4 (snd xy) i j =? 0)%nat then -1 else 1)%Z \/
       In (i, j) flipped /\ (nth (i * 4 + j) (fst xy) 0%Z = -1 \/ nth (i * 4 + j) (fst xy) 0%Z = 1)%Z)) D.
Proof.
  apply sat_done. unfold make_simple_2x2. apply sat_times.
  apply (sat_bind _ _ _ _ _ _ (sat_randint2 False s 0 2 ltac:(lia))). intros [a b] [Ha Hb]. cbn [fst snd] in Ha, Hb. cbn [fst snd].
  set (t := (2 * a)%nat). set (l := (2 * b)%nat). set (y := set_at (sl t (t + 2)) (sl l (l + 2)) 1%nat blank).
  assert (V : forall i j, y i j = if in_box 2 2 t l i j then 1%nat else 0%nat) by reflexivity.
  set (I := fun k (x : nat -> nat -> nat) => exists fl : list (nat * nat), (length fl <= k)%nat /\ forall i j, x i j = y i j \/ In (i, j) fl /\ (x i j < 2)%nat).
  apply (sat_bind _ _ _ _ (I n_flips)).
  - apply (sat_loop False s I _ n_flips) with (k := 0%nat); [|reflexivity|exists []; split; [cbn [length]; lia|left; reflexivity]].
    intros k x _ (fl & HL & HX). apply (sat_bind _ _ _ _ _ _ (sat_randint2 False s 0 4 ltac:(lia))). intros [c d] _. cbn [fst snd].
    apply (sat_bind _ _ _ _ _ _ (sat_randint False s 0 2 ltac:(lia))). intros v Hv. apply sat_ret. exists ((c, d) :: fl). split; [cbn [length]; lia|].
    intros i j. unfold set_at, just. destruct (Nat.eqb_spec c i) as [->|N]; [destruct (Nat.eqb_spec d j) as [->|N]|]; cbn [andb].
    + right. split; [left; reflexivity|lia].
    + destruct (HX i j) as [E|[E1 E2]]; [left; exact E|right; split; [right; exact E1|exact E2]].
    + destruct (HX i j) as [E|[E1 E2]]; [left; exact E|right; split; [right; exact E1|exact E2]].
  - intros x (fl & HL & HX). apply sat_ret. cbn [fst snd]. rewrite map_length, !labels_length. split; [reflexivity|]. split; [reflexivity|]. split.
    + exists t, l. split; [unfold t; lia|]. split; [unfold l; lia|]. intros i j Hi Hj. rewrite pixel_labels by assumption. apply V.
    + exists fl. split; [exact HL|]. intros i j Hi Hj. rewrite pixel_labels by assumption.
      set (code := fun v => if (v =? 0)%nat then (-1)%Z else Z.of_nat v).
      assert (E : nth (i * 4 + j) (map code (labels_of 4 4 x)) 0%Z = code (x i j)).
      { rewrite (nth_indep _ 0%Z (code O)) by (rewrite map_length, labels_length; lia). rewrite map_nth. f_equal. apply pixel_labels; assumption. }
      rewrite E. unfold code. destruct (HX i j) as [Q|[Q1 Q2]].
      * left. rewrite Q, V. destruct (in_box 2 2 t l i j); reflexivity.
      * right. split; [exact Q1|]. destruct (x i j) as [|[|u]]; [left; reflexivity|right; reflexivity|lia].
Qed.

(** ** bars *)
Lemma encode_inv h w c ms y x : encode h w c ms y = Ok x ->
  x = grid_of h w c (fun i j k => if existsb (fun m => m * y i j =? k)%nat ms then 1 else 0).
Proof. unfold encode. destruct (forallb _ (seq 0 h)); cbn [ensure bind]; [|discriminate]. intros E. injection E as <-. reflexivity. Qed.
Lemma encode_err h w c ms y e : encode h w c ms y = Err e -> e = IndexError.
Proof. unfold encode. destruct (forallb _ (seq 0 h)); cbn [ensure bind]; [discriminate|]. intros E. injection E as <-. reflexivity. Qed.
Lemma mapM_err_inv {A B} (f : A -> res B) l e : mapM f l = Err e -> exists a, In a l /\ f a = Err e.
Proof.
  induction l as [|a l IH]; cbn [mapM]; [discriminate|]. destruct (f a) as [b|e'] eqn:E; cbn [bind].
  - destruct (mapM f l) as [bs|e']; cbn [bind]; [discriminate|]. intros Q. destruct (IH Q) as (a' & H1 & H2). exists a'. split; [right; exact H1|exact H2].
  - intros Q. injection Q as ->. exists a. split; [left; reflexivity|exact E].
Qed.
Lemma mapM_ok_inv {A B} (f : A -> res B) l bs : mapM f l = Ok bs -> Forall2 (fun a b => f a = Ok b) l bs.
Proof.
  revert bs. induction l as [|a l IH]; intros bs; cbn [mapM]; [intros E; injection E as <-; constructor|].
  destruct (f a) as [b|e'] eqn:E; cbn [bind]; [|discriminate]. destruct (mapM f l) as [bs'|e']; cbn [bind]; [|discriminate].
  intros Q. injection Q as <-. constructor; [exact E|apply IH; reflexivity].
Qed.
Lemma observe_any s p size c ms base lo hi v noise Ys : (lo < hi)%nat -> (0 < v)%nat ->
  match observe size c ms base lo hi v noise Ys s p with
  | Done D _ => Forall2 (fun y xy => shaped size size c xy /\ labelled size size xy y /\ noisy_view size size c v noise base (fun u => map (fun m => m * u)%nat ms) xy) Ys D
  | Raised e => e = IndexError
  | Running => False
  end.
Proof.
  intros H Hv. unfold observe. unfold gbind at 1.
  set (P := fun (y f : nat -> nat -> nat) => exists l, (length l <= noise)%nat /\ (forall i j, f i j = base (y i j) \/ In (i, j) l /\ (f i j < v)%nat)).
  assert (HP : sat False s (mapG (fun y : nat -> nat -> nat => flip lo hi v noise (fun i j => base (y i j))) Ys) (Forall2 P Ys)).
  { apply sat_map. intros y _. apply sat_flip; assumption. }
  generalize (HP p). destruct (mapG _ Ys s p) as [Yf q|e|]; [|tauto|tauto]. intros HYf. unfold gbind, glift.
  destruct (mapM (encode size size c ms) Yf) as [Xs|e] eqn:E.
  - cbn. apply mapM_ok_inv in E. clear HP p. revert Xs E. induction HYf as [|y f Ys' Yf' (l & HL & HF) _ IH]; intros Xs E.
    + inversion E. constructor.
    + inversion E as [|? x ? Xs' Ex F']. cbn [map combine]. constructor; [|apply IH; exact F']. apply encode_inv in Ex.
      split; [rewrite Ex; apply shaped_of|]. split; [intros i j Hi Hj; apply pixel_labels; assumption|].
      exists l, f. split; [exact HL|]. split.
      * intros i j Hi Hj. cbn [snd]. rewrite pixel_labels by assumption. apply HF.
      * intros i j k Hi Hj Hk. cbn [fst]. rewrite Ex, channel_grid by assumption.
        replace (existsb (Nat.eqb k) (map (fun m => m * f i j)%nat ms)) with (existsb (fun m => m * f i j =? k)%nat ms); [reflexivity|].
        clear. induction ms as [|m ms IH]; [reflexivity|]. cbn [existsb map]. rewrite IH, Nat.eqb_sym. reflexivity.
  - destruct (mapM_err_inv _ _ _ E) as (f & _ & Q). exact (encode_err _ _ _ _ _ _ Q).
Qed.

Lemma just_sl t i : just t i = ((t <=? i)%nat && (i <? t + 1)%nat).
Proof. unfold just. destruct (Nat.eqb_spec t i); destruct (Nat.leb_spec t i); destruct (Nat.ltb_spec i (t + 1)); try reflexivity; lia. Qed.
Lemma bars_images s bars total sep : (bars + 2 <= total)%nat ->
  sat False s (two_far 3 1 (total - bars)
               (fun t l im =>
                  draw vertical := coin in
                  if vertical
                  then draw _ := inside total [l] in gret (set_at (sl t (t + bars)) (just l) (if sep : bool then 2%nat else 1%nat) im)
                  else draw _ := inside total [t] in gret (set_at (just t) (sl l (l + bars)) 1%nat im)) 2)
    (bars_image (if sep then 2 else 1) bars total).
Proof.
  intros H. set (v := if sep then 2%nat else 1%nat).
  set (Q := fun t l (im im' : nat -> nat -> nat) => exists o : bool, forall i j, im' i j = bar_label v bars (o, (t, l)) i j (im i j)).
  match goal with |- sat _ _ (two_far _ _ _ ?f _) _ => set (put := f) end.
  assert (HP : forall t l im, (1 <= t < total - bars)%nat -> (1 <= l < total - bars)%nat -> sat False s (put t l im) (Q t l im)).
  { intros t l im Ht Hl. apply (sat_bind _ _ _ _ _ _ (sat_coin False s)). intros o _. destruct o;
     (apply (sat_bind _ _ _ _ (fun _ => True)); [apply sat_inside; [apply Forall_cons; [lia|apply Forall_nil]|exact I]|]);
     intros _ _; apply sat_ret; [exists true|exists false]; intros i j; unfold set_at, bar_label, in_box; rewrite just_sl; reflexivity. }
  apply (sat_weaken False s _ _ _ (sat_two_far False s 3 1 (total - bars) put Q ltac:(lia) ltac:(lia) HP)).
  intros y (t & l & im1 & Ht & Hl & (o & HQ) & HY).
  destruct HY as [->|(t' & l' & Ht' & Hl' & HF & (o' & HQ'))].
  - exists (o, (t, l)), (o, (t, l)). unfold bar_ok. cbn [fst snd]. split; [lia|]. split; [lia|]. split; [left; reflexivity|].
    intros i j. rewrite HQ. unfold blank, bar_label. destruct o; destruct (in_box _ _ _ _ _ _); reflexivity.
  - exists (o, (t, l)), (o', (t', l')). unfold bar_ok. cbn [fst snd]. split; [lia|]. split; [lia|]. split; [right; exact HF|].
    intros i j. rewrite HQ', HQ. reflexivity.
Qed.
Lemma in_labels size (y : nat -> nat -> nat) i j : (i < size)%nat -> (j < size)%nat -> In (y i j) (labels_of size size y).
Proof. intros Hi Hj. rewrite <- (pixel_labels size size y i j Hi Hj). unfold pixel. apply nth_In. rewrite labels_length. nia. Qed.
Lemma unique_bound size Ys us : NoDup us -> (forall u, In u us -> exists y i j, In y Ys /\ (i < size)%nat /\ (j < size)%nat /\ y i j = u) ->
  (length us <= n_unique_labels size Ys)%nat.
Proof.
  intros HN H. unfold n_unique_labels. apply NoDup_incl_length; [exact HN|]. intros u Hu. apply nodup_In. destruct (H u Hu) as (y & i & j & Hy & Hi & Hj & <-).
  apply in_concat. exists (labels_of size size y). split; [apply in_map; exact Hy|apply in_labels; assumption].
Qed.
Lemma corner_zero v bars total y : bars_image v bars total y -> y 0%nat 0%nat = 0%nat.
Proof.
  intros ([o [t l]] & [o' [t' l']] & (A1 & _ & A2 & _) & (B1 & _ & B2 & _) & _ & HY). rewrite HY. cbn [fst snd] in *. unfold bar_label, in_box.
  rewrite (proj2 (Nat.leb_gt t 0)), (proj2 (Nat.leb_gt t' 0)) by lia. cbn [andb]. destruct o, o'; reflexivity.
Qed.

Lemma bars_any s p n noise bars total sep : (bars + 2 <= total)%nat ->
  match generate_bars n noise bars total sep s p with
  | Done D _ => length D = n /\ exists c, (sep = false -> (1 < c -> bars <> 0) /\ c <= 2)%nat /\ Forall (bars_spec (if sep then 2 else 1)%nat bars total c noise) D
  | Raised e => sep = true /\ e = IndexError
  | Running => False
  end.
Proof.
  intros H. unfold generate_bars. unfold gbind at 1.
  generalize (sat_times False s n _ _ (bars_images s bars total sep H) p).
  match goal with |- match ?g with Done _ _ => _ | Raised _ => _ | Running => _ end -> _ => destruct g as [Ys q|e|] end; [|tauto|tauto]. intros [HL HF].
  set (c := n_unique_labels total Ys). set (v := if sep then 2%nat else 1%nat) in *.
  destruct n as [|n].
  { destruct Ys; [|discriminate HL]. cbn. split; [reflexivity|]. exists 0%nat. split; [intros _; lia|constructor]. }
  assert (HY : exists y Ys', Ys = y :: Ys') by (destruct Ys as [|y Ys']; [discriminate HL|exists y, Ys'; reflexivity]).
  destruct HY as (y0 & Ys' & EY).
  assert (H0 : exists y i j, In y Ys /\ (i < total)%nat /\ (j < total)%nat /\ y i j = 0%nat).
  { exists y0, 0%nat, 0%nat. split; [rewrite EY; left; reflexivity|]. split; [lia|]. split; [lia|]. apply (corner_zero v bars total). rewrite EY in HF. exact (Forall_inv HF). }
  assert (C : (0 < c)%nat). { apply (unique_bound total Ys [0%nat]); [constructor; [intros []|constructor]|]. intros u [<-|[]]. exact H0. }
  assert (LE : forall y, In y Ys -> forall i j, (y i j <= v)%nat).
  { intros y Hy i j. rewrite Forall_forall in HF. destruct (HF y Hy) as ([o [t l]] & [o' [t' l']] & _ & _ & _ & HB). rewrite HB. unfold bar_label. unfold v.
    destruct sep, o, o'; destruct (in_box _ _ _ _ _ _); try lia; destruct (in_box _ _ _ _ _ _); lia. }
  assert (OUT : forall D, Forall2 (fun y xy => shaped total total c xy /\ labelled total total xy y /\ noisy_view total total c c noise same (fun u => map (fun m => m * u)%nat [1%nat]) xy) Ys D ->
    length D = Datatypes.S n /\ Forall (bars_spec v bars total c noise) D).
  { intros D HD. rewrite <- HL. apply (Forall2_all _ (bars_image v bars total) _ Ys D HD HF). intros y xy (S1 & S2 & S3) HI. split; [exact S1|]. split; [exact S3|]. exists y. split; assumption. }
  destruct sep.
  - generalize (observe_any s q total c [1%nat] same 0 total c noise Ys ltac:(lia) C).
    destruct (observe total c [1%nat] same 0 total c noise Ys s q) as [D q'|e|]; [|intros ->; split; reflexivity|tauto].
    intros HD. destruct (OUT D HD) as [O1 O2]. split; [exact O1|]. exists c. split; [discriminate|exact O2].
  - assert (B : forall y, In y Ys -> forall i j, (i < total)%nat -> (j < total)%nat -> (same (y i j) < c)%nat).
    { intros y Hy i j Hi Hj. unfold same. assert (L := LE y Hy i j). unfold v in L. destruct (y i j) as [|[|u]] eqn:E; [lia| |lia].
      apply (unique_bound total Ys [0; 1]%nat); [constructor; [intros [Q|[]]; discriminate Q|constructor; [intros []|constructor]]|].
      intros u [<-|[<-|[]]]; [exact H0|]. exists y, i, j. tauto. }
    generalize (sat_observe False s total c [1%nat] same 0 total c noise Ys ltac:(lia) C ltac:(intros m u [<-|[]] Hu; lia) B q).
    destruct (observe total c [1%nat] same 0 total c noise Ys s q) as [D q'|e|]; [|tauto|tauto].
    intros HD. destruct (OUT D HD) as [O1 O2]. split; [exact O1|]. exists c. split; [|exact O2]. intros _.
    assert (U : (c <= 2)%nat).
    { unfold c, n_unique_labels. apply (NoDup_incl_length (NoDup_nodup Nat.eq_dec _) (l' := [0; 1]%nat)). intros u Hu. apply nodup_In in Hu. apply in_concat in Hu.
      destruct Hu as (ls & H1 & H2). apply in_map_iff in H1. destruct H1 as (y & <- & Hy). apply (In_nth _ _ O) in H2. destruct H2 as (m & Hm & <-). rewrite labels_length in Hm.
      assert (E : nth m (labels_of total total y) O = y (m / total)%nat (m mod total)%nat).
      { rewrite <- (pixel_labels total total y (m / total) (m mod total)); [unfold pixel; f_equal; rewrite Nat.mul_comm; apply Nat.div_mod; lia|apply Nat.div_lt_upper_bound; lia|apply Nat.mod_upper_bound; lia]. }
      rewrite E. assert (L := LE y Hy (m / total)%nat (m mod total)%nat). unfold v in L. destruct (y _ _) as [|[|u]]; [left; reflexivity|right; left; reflexivity|lia]. }
    split; [|exact U]. intros C1 ->.
    assert (Z : (c <= 1)%nat).
    { unfold c, n_unique_labels. apply (NoDup_incl_length (NoDup_nodup Nat.eq_dec _) (l' := [0]%nat)). intros u Hu. apply nodup_In in Hu. apply in_concat in Hu.
      destruct Hu as (ls & H1 & H2). apply in_map_iff in H1. destruct H1 as (y & <- & Hy). apply (In_nth _ _ O) in H2. destruct H2 as (m & Hm & <-). rewrite labels_length in Hm.
      assert (E : nth m (labels_of total total y) O = y (m / total)%nat (m mod total)%nat).
      { rewrite <- (pixel_labels total total y (m / total) (m mod total)); [unfold pixel; f_equal; rewrite Nat.mul_comm; apply Nat.div_mod; lia|apply Nat.div_lt_upper_bound; lia|apply Nat.mod_upper_bound; lia]. }
      rewrite E. rewrite Forall_forall in HF. destruct (HF y Hy) as ([o [t l]] & [o' [t' l']] & _ & _ & _ & HB). rewrite HB. left.
      assert (N1 : forall t l i j, in_box 0 1 t l i j = false). { intros. unfold in_box. apply andb_false_iff. left. apply andb_false_iff. rewrite Nat.leb_gt, Nat.ltb_ge. lia. }
      assert (N2 : forall t l i j, in_box 1 0 t l i j = false). { intros. unfold in_box. apply andb_false_iff. right. apply andb_false_iff. rewrite Nat.leb_gt, Nat.ltb_ge. lia. }
      unfold bar_label. rewrite !N1, !N2. destruct o, o'; reflexivity. }
    lia.
Qed.
Lemma bars_small s p n noise bars total sep : (total < bars + 2)%nat -> (0 < n)%nat -> generate_bars n noise bars total sep s p = Raised ValueError.
Proof. intros H Hn. unfold generate_bars. apply raise_first; [exact Hn|]. intros q. apply two_far_raise; lia. Qed.

(** ** generate_crosses_latent and initialize *)
Lemma latent_unique s p n noise D q : generate_crosses_latent n noise s p = Done D q -> (0 < n)%nat ->
  n_unique (map (map Z.of_nat) (map snd D)) = Ok 3%nat /\ forall y, In y (map snd D) -> In 3%nat y.
Proof.
  intros E Hn. destruct (crosses_latent_data s p n noise) as (D' & q' & E' & HL & HF). rewrite E in E'. injection E' as <- <-.
  assert (HV : forall y, In y (map snd D) -> forall v, In v y <-> (v = 0 \/ v = 2 \/ v = 3)%nat).
  { intros y Hy. apply in_map_iff in Hy. destruct Hy as (xy & <- & Hxy). rewrite Forall_forall in HF. destruct (HF xy Hxy) as (S1 & _ & a & b & R & L). exact (latent_labels xy a b S1 R L). }
  split; [|intros y Hy; apply (HV y Hy); tauto].
  apply n_unique_spec. destruct D as [|xy D]; [cbn [length] in HL; lia|]. split; [discriminate|]. exists [0; 2; 3]%Z. split.
  { constructor; [intros [Q|[Q|[]]]; discriminate Q|]. constructor; [intros [Q|[]]; discriminate Q|]. constructor; [intros []|constructor]. }
  split; [reflexivity|]. intros x. split.
  - intros Hx. apply in_concat. exists (map Z.of_nat (snd xy)). split; [left; reflexivity|].
    assert (Hv := HV (snd xy) (or_introl eq_refl)). destruct Hx as [<-|[<-|[<-|[]]]]; [apply (in_map Z.of_nat _ 0%nat)|apply (in_map Z.of_nat _ 2%nat)|apply (in_map Z.of_nat _ 3%nat)]; apply Hv; tauto.
  - intros Hx. apply in_concat in Hx. destruct Hx as (ls & H1 & H2). apply in_map_iff in H1. destruct H1 as (y & <- & Hy). apply in_map_iff in H2. destruct H2 as (v & <- & Hv).
    apply (HV y Hy) in Hv. destruct Hv as [->|[->| ->]]; cbn; tauto.
Qed.
Lemma latent_gap s p n noise D q directed Xs a a' : generate_crosses_latent n noise s p = Done D q ->
  graph_initialize directed Xs (map (map Z.of_nat) (map snd D)) a = (a', None) ->
  forall y y', In y (map snd D) -> a_things a' = Some 3%nat /\ exists c, a_cw a' = Some c /\ loss (Some c) y y' = Err IndexError.
Proof.
  intros E HI y y' Hy. assert (Hn : (0 < n)%nat).
  { destruct (crosses_latent_data s p n noise) as (D' & q' & E' & HL & _). rewrite E in E'. injection E' as <- <-. destruct n; [|lia]. destruct D; [destruct Hy|discriminate HL]. }
  destruct (latent_unique s p n noise D q E Hn) as [U V].
  destruct (gap_breaks_loss directed Xs (map snd D) a a' y y' 3%nat 3%nat U HI Hy (V y Hy) (le_n 3)) as (H1 & c & H2 & H3 & _).
  split; [exact H1|]. exists c. split; assumption.
Qed.
Lemma latent_accepted s p n noise D q directed x Xs : (0 < n)%nat -> generate_crosses_latent n noise s p = Done D q ->
  snd (graph_initialize directed (x :: Xs) (map (map Z.of_nat) (map snd D)) (fst (construct (graph_sizer directed) None None None))) = None.
Proof.
  intros Hn E. destruct (latent_unique s p n noise D q E Hn) as [U _]. unfold graph_initialize. rewrite U.
  cbn [first_cols construct finish set_size graph_sizer both set_class_weight a_things a_features a_size fst].
  reflexivity.
Qed.
(** every pair of the six letters, in a cycle of odd length: a fair stream *)
Definition ex28_stream (p : nat) : nat := nth (p mod 37) [0;0;0;1;0;2;0;3;0;4;0;5;1;1;2;1;3;1;4;1;5;2;2;3;2;4;2;5;3;3;4;3;5;4;4;5;5]%nat 0%nat.
Lemma ex28_fair : fair 37 6 ex28_stream.
Proof.
  intros p a b Ha Hb. set (ok := fun r a b q => ((ex28_stream (r + 2 * q) mod 6 =? a) && (ex28_stream (r + 2 * q + 1) mod 6 =? b))%nat).
  assert (C : forallb (fun r => forallb (fun a => forallb (fun b => existsb (ok r a b) (seq 0 37)) (seq 0 6)) (seq 0 6)) (seq 0 37) = true) by (vm_compute; reflexivity).
  rewrite forallb_forall in C. pose proof (Nat.mod_upper_bound p 37 ltac:(discriminate)) as HR.
  specialize (C (p mod 37)%nat ltac:(apply in_seq; lia)). cbn beta in C. rewrite forallb_forall in C.
  specialize (C a ltac:(apply in_seq; lia)). cbn beta in C. rewrite forallb_forall in C. specialize (C b ltac:(apply in_seq; lia)). cbn beta in C.
  apply existsb_exists in C as (q & Hq & C). apply in_seq in Hq. unfold ok in C. apply andb_prop in C as [C1 C2].
  apply Nat.eqb_eq in C1, C2. exists q. split; [lia|].
  assert (T : forall d, ex28_stream (p mod 37 + d) = ex28_stream (p + d)).
  { intros d. unfold ex28_stream. now rewrite Nat.add_mod_idemp_l by discriminate. }
  rewrite T in C1. rewrite <- Nat.add_assoc, T, Nat.add_assoc in C2. split; assumption.
Qed.
