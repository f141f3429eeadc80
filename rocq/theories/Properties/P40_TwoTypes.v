(** C79: the instances with pixel and picture nodes of examples/plot_hidden_short_snakes_typed.py, and the logic constraints of the
    snake examples. *)
From Coq Require Import String ZArith Lia.
From Verif Require Import Spec.TwoTypesSpec Proofs.Snakes Proofs.HiddenSnakes4 Proofs.TwoTypes Proofs.TwoTypes3.

(** ** prepare_picture_data *)
(** The picture features are the five colour counts and the distances between the first and the last coloured row and column. *)
Theorem C79_picture_features (p : arr3) : (5 <= a_c p)%nat -> (exists a, coloured p a) ->
  exists m i0 i1 j0 j1, picture_features p = Ok m /\ mat_ok m /\ mrows m = 1%nat /\ mcols m = 7%nat /\
    (forall c, (c < 5)%nat -> exists n, channel_count p c n /\ mget m 0 c = ofN n) /\
    colour_rows p i0 i1 /\ colour_cols p j0 j1 /\ mget m 0 5 = ofN (i1 - i0) /\ mget m 0 6 = ofN (j1 - j0).
Proof. exact (features_ok p). Qed.
Theorem C79_picture_features_errors (p : arr3) :
  ((a_c p < 5)%nat -> picture_features p = Err IndexError) /\
  ((5 <= a_c p)%nat -> (forall a, ~ coloured p a) -> picture_features p = Err ValueError).
Proof. exact (features_errors p). Qed.
(** the counts of a one-hot picture add up to the number of its pixels *)
Theorem C79_counts_total (p : arr3) (ns : nat -> nat) : one_hot_picture p -> (forall c, (c < 5)%nat -> channel_count p c (ns c)) ->
  list_sum (map ns (seq 0 5)) = (a_h p * a_w p)%nat.
Proof. exact (counts_total p ns). Qed.
(** Distorting a snake (giving one coloured cell the colour of another one) leaves the background count, the height and the width as
    they are: only the other four counts can tell a hidden snake from a distorted one. *)
Theorem C79_distortion_keeps (p q : arr3) (a b : nat * nat) (m : mat) : (5 <= a_c p)%nat -> coloured p a -> coloured p b ->
  recoloured p q a b -> picture_features p = Ok m ->
  exists m', picture_features q = Ok m' /\ mget m' 0 3 = mget m 0 3 /\ mget m' 0 5 = mget m 0 5 /\ mget m' 0 6 = mget m 0 6.
Proof. exact (distortion p q a b m). Qed.

(** ** makeItEasy: not one feature but all seven become the label of the picture *)
Theorem C79_easy_overwrites (lX : list mat) (lY : list Z) : Forall (fun m => mrows m = 1%nat /\ mcols m = 7%nat) lX ->
  exists lX', makeItEasy lX lY = Ok lX' /\ length lX' = length lX /\
    forall k m, nth_error lX k = Some m ->
      match nth_error lY k with
      | Some y => exists m', nth_error lX' k = Some m' /\ mrows m' = 1%nat /\ mcols m' = 7%nat /\
                    forall f, (f < 7)%nat -> mget m' 0 f = ofZ y
      | None => nth_error lX' k = Some m
      end.
Proof. exact (easy_ok lX lY). Qed.
Theorem C79_easy_error (lX : list mat) (m : mat) (y : Z) (lY : list Z) : mrows m = 0%nat ->
  makeItEasy (m :: lX) (y :: lY) = Err IndexError.
Proof. exact (easy_error lX m y lY). Qed.

(** ** convertToTwoType *)
(** The result is an instance of the model that the example builds; every pixel has an edge to the picture node; the labels are those
    of the pixels followed by that of the picture, and they are accepted exactly if all pixel labels are at most nCell and the picture
    label is 0 or 1. *)
Theorem C79_convert (nCell : nat) (x : arr3) (d e : ef_x) (lbl : lab2) (pf : mat) (pl : Z) (meth : string)
      (cw : option (list (list Qc))) (g : ty_crf) :
  ty_setup 2 [nCell + 1; 2]%nat [45; 7]%nat [[180; 45]; [45; 0]]%nat meth cw = Ok g ->
  prepare_picture x = Ok (d, e) -> l_h lbl = a_h x -> l_w lbl = a_w x -> mrows pf = 1%nat -> mcols pf = 7%nat ->
  exists tx y, two_types nCell x e lbl pf pl = Ok (tx, y) /\
    tx_nodes tx = [Some (ex_features e); Some pf] /\
    x_edges 2 tx 0 0 = map (fun ab => (Z.of_nat (fst ab), Z.of_nat (snd ab))) (ex_edges e) /\
    x_edges 2 tx 0 1 = map (fun k => (Z.of_nat k, 0%Z)) (seq 0 (a_h x * a_w x)) /\
    x_edges 2 tx 1 0 = [] /\ x_edges 2 tx 1 1 = [] /\
    length y = (a_h x * a_w x + 1)%nat /\
    (forall i j, (i < a_h x)%nat -> (j < a_w x)%nat -> nth (i * a_w x + j) y 0%Z = Z.of_nat (lget lbl i j)) /\
    nth (a_h x * a_w x) y 0%Z = (pl + Z.of_nat nCell + 1)%Z /\
    ty_check_x g tx = Ok tt /\ typed_instance g tx /\
    (ty_check_xy g tx y = Ok tt <->
     (forall i j, (i < l_h lbl)%nat -> (j < l_w lbl)%nat -> (lget lbl i j <= nCell)%nat) /\ (0 <= pl <= 1)%Z).
Proof. exact (convert_ok nCell x d e lbl pf pl meth cw g). Qed.
Theorem C79_convert_error (nCell : nat) (x : arr3) (e : ef_x) (lbl : lab2) (pf : mat) (pl : Z) :
  (a_h x * a_w x = 0)%nat \/ (a_c x <> 5%nat /\ a_c x <> 1%nat) -> two_types nCell x e lbl pf pl = Err ValueError.
Proof. exact (convert_error nCell x e lbl pf pl). Qed.
(** The score is that of an EdgeFeatureGraphCRF on the pixels, plus a linear score of the picture label on the picture features, plus
    for every pixel a score of its label and the picture label, linear in its patch. *)
Theorem C79_convert_score (nCell : nat) (x : arr3) (d e : ef_x) (m : mat) (lbl : lab2) (pf : mat) (pl : Z) (meth : string)
      (cw : option (list (list Qc))) (g : ty_crf) (tx : typed_x) (y : list Z) (w : list Qc) :
  ty_setup 2 [nCell + 1; 2]%nat [45; 7]%nat [[180; 45]; [45; 0]]%nat meth cw = Ok g ->
  prepare_picture x = Ok (d, e) -> neighborhood_feature x = Ok m ->
  l_h lbl = a_h x -> l_w lbl = a_w x -> mrows pf = 1%nat -> mcols pf = 7%nat ->
  (forall i j, (i < l_h lbl)%nat -> (j < l_w lbl)%nat -> (lget lbl i j <= nCell)%nat) -> (0 <= pl <= 1)%Z ->
  two_types nCell x e lbl pf pl = Ok (tx, y) -> length w = ty_size g ->
  let K := (nCell + 1)%nat in let n := (a_h x * a_w x)%nat in let wp := pixel_weights K w in
  let L k := lget lbl (k / a_w x) (k mod a_w x) in
  ty_score g tx w y =
  score n (ex_edges e) (fun k s => unary_score 45 wp (mget (ex_features e) k) s)
    (fun i s t => edge_score 180 K 45 wp (mget (ex_edge_features e) i) s t) L +
  sumn 7 (fun f => mget pf 0 f * get1 w (K * 45 + (Z.to_nat pl * 7 + f))) +
  sumn n (fun k => sumn 45 (fun f =>
    mget m k f * get1 w (K * 45 + 2 * 7 + 180 * (K * K) + (f * (K * 2) + (L k * 2 + Z.to_nat pl))))).
Proof. exact (convert_score nCell x d e m lbl pf pl meth cw g tx y w). Qed.
(** all pictures: as many results as the shortest list has entries *)
Theorem C79_convert_all (nCell : nat) (X : list arr3) (D : list ef_x) (Y : list lab2) (PF : list mat) (PL : list Z) :
  (forall lX lY, convertToTwoType nCell X D Y PF PL = Ok (lX, lY) ->
     length lX = Nat.min (Nat.min (Nat.min (Nat.min (length X) (length D)) (length Y)) (length PF)) (length PL) /\ length lY = length lX /\
     forall k x d lbl pf pl, nth_error X k = Some x -> nth_error D k = Some d -> nth_error Y k = Some lbl -> nth_error PF k = Some pf ->
       nth_error PL k = Some pl ->
       exists tx y, nth_error lX k = Some tx /\ nth_error lY k = Some y /\ two_types nCell x d lbl pf pl = Ok (tx, y)) /\
  ((forall k x d lbl pf pl, nth_error X k = Some x -> nth_error D k = Some d -> nth_error Y k = Some lbl -> nth_error PF k = Some pf ->
      nth_error PL k = Some pl -> exists r, two_types nCell x d lbl pf pl = Ok r) ->
   exists r, convertToTwoType nCell X D Y PF PL = Ok r).
Proof. exact (convert_all nCell X D Y PF PL). Qed.

(** ** The exchange of the two types *)
(** swap_node_types with [1, 0] gives instances of the other model of the example, with the picture first *)
Theorem C79_swapped_model (nCell : nat) (meth : string) (g : ty_crf) :
  ty_setup 2 [nCell + 1; 2]%nat [45; 7]%nat [[180; 45]; [45; 0]]%nat meth None = Ok g ->
  ty_setup 2 [2; nCell + 1]%nat [7; 45]%nat [[0; 45]; [45; 180]]%nat meth None = Ok (renumber [1; 0]%nat g).
Proof. exact (renumber_snake nCell meth g). Qed.
Theorem C79_swapped (nCell : nat) (x : arr3) (d e : ef_x) (lbl : lab2) (pf : mat) (pl : Z) (meth : string)
      (cw : option (list (list Qc))) (g : ty_crf) (tx : typed_x) (y : list Z) :
  ty_setup 2 [nCell + 1; 2]%nat [45; 7]%nat [[180; 45]; [45; 0]]%nat meth cw = Ok g ->
  prepare_picture x = Ok (d, e) -> l_h lbl = a_h x -> l_w lbl = a_w x -> mrows pf = 1%nat -> mcols pf = 7%nat ->
  (forall i j, (i < l_h lbl)%nat -> (j < l_w lbl)%nat -> (lget lbl i j <= nCell)%nat) -> (0 <= pl <= 1)%Z ->
  two_types nCell x e lbl pf pl = Ok (tx, y) ->
  exists tx' y', swap_one [1; 0]%nat [nCell + 1; 2]%nat [2; nCell + 1]%nat tx y = Ok (tx', y') /\
    tx_nodes tx' = [Some pf; Some (ex_features e)] /\
    typed_instance (renumber [1; 0]%nat g) tx' /\ typed_labelling [2; nCell + 1]%nat (type_rows 2 tx') y' /\
    length y' = (1 + a_h x * a_w x)%nat /\ nth 0 y' 0%Z = pl /\
    (forall i j, (i < a_h x)%nat -> (j < a_w x)%nat -> nth (1 + (i * a_w x + j)) y' 0%Z = (Z.of_nat (lget lbl i j) + 2)%Z) /\
    forall w, length w = ty_size g -> ty_score (renumber [1; 0]%nat g) tx' (renumber_weights [1; 0]%nat g w) y' = ty_score g tx w y.
Proof. exact (swapped nCell x d e lbl pf pl meth cw g tx y). Qed.

(** ** Constraints *)
(** The states allowed by listConstraints: no snake and all pixels background, or a snake, not all pixels background, and every cell
    number exactly once. *)
Theorem C79_constraints (ncell n : nat) (y : nat -> nat -> nat) : (y 1 0 < 2)%nat ->
  (all_satisfied y (snake_constraints ncell n) <->
   (y 1 0 = 0 /\ forall k, k < n -> y 0 k = 0)%nat \/
   (y 1%nat 0%nat = 1%nat /\ (exists k, (k < n)%nat /\ y 0%nat k <> 0%nat) /\
    forall s, (1 <= s <= ncell)%nat -> exactly_one n (fun k => y 0%nat k = s))).
Proof. exact (snake_constraints_iff ncell n y). Qed.
Theorem C79_constraints_atmostone (ncell n : nat) (y : nat -> nat -> nat) :
  all_satisfied y (atmostone_constraints ncell n) <-> forall s, (1 <= s <= ncell)%nat -> at_most_one n (fun k => y 0%nat k = s).
Proof. exact (atmostone_iff ncell n y). Qed.
(** one list of constraints per instance, for the pixels of that instance *)
Theorem C79_constraints_all (ncell : nat) (lX : list typed_x) :
  Forall (fun x => exists a b, tx_nodes x = [Some a; Some b]) lX ->
  listConstraints ncell lX = Ok (map (fun x => snake_constraints ncell (x_rows x 0)) lX) /\
  listConstraints_ATMOSTONE ncell lX = Ok (map (fun x => atmostone_constraints ncell (x_rows x 0)) lX).
Proof. exact (list_constraints_all ncell lX). Qed.
(** the first instance whose pixel array is missing (None has no length), or that does not have two node arrays, stops the function *)
Theorem C79_constraints_errors (ncell : nat) (lX lX' : list typed_x) (x : typed_x) :
  Forall (fun x => (exists a b, tx_nodes x = [Some a; b])) lX ->
  (forall b, tx_nodes x = [None; b] ->
     listConstraints ncell (lX ++ x :: lX') = Err TypeError /\ listConstraints_ATMOSTONE ncell (lX ++ x :: lX') = Err TypeError) /\
  (length (tx_nodes x) <> 2%nat ->
     listConstraints ncell (lX ++ x :: lX') = Err ValueError /\ listConstraints_ATMOSTONE ncell (lX ++ x :: lX') = Err ValueError).
Proof. exact (list_constraints_error ncell lX lX' x). Qed.
(** The true labels of a converted picture satisfy them exactly if the picture is marked as having a snake and has every cell number
    once, or is marked as having none and has no labels. *)
Theorem C79_true_labels (nCell : nat) (x : arr3) (d e : ef_x) (lbl : lab2) (pf : mat) (pl : Z) (tx : typed_x) (y : list Z) :
  (1 <= nCell)%nat -> prepare_picture x = Ok (d, e) -> l_h lbl = a_h x -> l_w lbl = a_w x -> mrows pf = 1%nat -> (0 <= pl <= 1)%Z ->
  two_types nCell x e lbl pf pl = Ok (tx, y) ->
  let states := typed_lab [nCell + 1; 2]%nat (type_rows 2 tx) y in
  exists cs, listConstraints nCell [tx] = Ok [cs] /\
    (all_satisfied states cs <-> (pl = 1%Z /\ snake_labels nCell lbl) \/ (pl = 0%Z /\ no_labels lbl)) /\
  exists cs', listConstraints_ATMOSTONE nCell [tx] = Ok [cs'] /\
    (all_satisfied states cs' <->
     forall s i j i' j', (1 <= s <= nCell)%nat -> (i < l_h lbl)%nat -> (j < l_w lbl)%nat -> (i' < l_h lbl)%nat -> (j' < l_w lbl)%nat ->
       lget lbl i j = s -> lget lbl i' j' = s -> i = i' /\ j = j').
Proof. exact (labels_constraints nCell x d e lbl pf pl tx y). Qed.
(** buildConstraints: every state from 1 to [top] - 1 exactly (or at most) once *)
Theorem C79_build_constraints (bOne : bool) (top : nat) (X : list ef_x) :
  length (buildConstraints bOne top X) = length X /\
  forall (k : nat) (x : ef_x) (y : nat -> nat -> nat), nth_error X k = Some x ->
  exists cs, nth_error (buildConstraints bOne top X) k = Some cs /\
    (all_satisfied y cs <-> forall s, (1 <= s < top)%nat ->
       if bOne then exactly_one (mrows (ex_features x)) (fun i => y 0%nat i = s)
       else at_most_one (mrows (ex_features x)) (fun i => y 0%nat i = s)).
Proof. exact (conj (build_length bOne top X) (build_iff bOne top X)). Qed.
(** with [top] = 10, as in plot_snakes_constraints.py, the last of the ten cells of a snake may be missing or appear twice *)
Theorem C79_tail_unconstrained_refuted :
  exists (x : ef_x) (cs : list scalar_constraint) (y y' : nat -> nat -> nat),
    buildConstraints true 10 [x] = [cs] /\ all_satisfied y cs /\ all_satisfied y' cs /\
    (exists i j, (i < j < mrows (ex_features x))%nat /\ y 0%nat i = 10%nat /\ y 0%nat j = 10%nat) /\
    (forall i, (i < mrows (ex_features x))%nat -> y' 0%nat i <> 10%nat).
Proof.
  set (x := EFX (Mat 12 0 (repeat [] 12)) [] (Mat 0 0 [])).
  exists x. eexists. exists (fun _ i => if (i <? 9)%nat then S i else 10%nat), (fun _ i => if (i <? 9)%nat then S i else 0%nat).
  split; [reflexivity|].
  assert (H : forall z, (forall s, (1 <= s < 10)%nat -> exactly_one 12 (fun i => (if (i <? 9)%nat then S i else z) = s)) <->
                        (z = 0 \/ 10 <= z)%nat).
  { intros z. split.
    - intros H. destruct (Nat.eq_dec z 0) as [|N]; [left; assumption|]. destruct (le_lt_dec 10 z) as [|L]; [right; assumption|].
      destruct (H z ltac:(lia)) as [k [_ [_ U]]]. pose proof (U 10%nat ltac:(lia) eq_refl). pose proof (U 11%nat ltac:(lia) eq_refl). lia.
    - intros Hz s Hs. exists (s - 1)%nat. split; [lia|]. destruct (Nat.ltb_spec (s - 1) 9); [|lia]. split; [lia|].
      intros k' Hk'. destruct (Nat.ltb_spec k' 9); lia. }
  destruct (build_iff true 10 [x] 0 x (fun _ i => if (i <? 9)%nat then S i else 10%nat) eq_refl) as [c1 [E1 C1]].
  destruct (build_iff true 10 [x] 0 x (fun _ i => if (i <? 9)%nat then S i else 0%nat) eq_refl) as [c2 [E2 C2]].
  injection E1 as <-. injection E2 as <-.
  split; [apply C1; apply H; lia|]. split; [apply C2; apply H; lia|]. split.
  - exists 9%nat, 10%nat. cbn. lia.
  - intros i _. destruct (Nat.ltb_spec i 9); lia.
Qed.

(** ** Example: a snake of two cells in a picture of 3 x 4 pixels *)
Definition ex40_x : arr3 := picture 3 4 [[3; 3; 3; 3]; [3; 2; 1; 3]; [3; 3; 3; 3]]%nat.
Definition ex40_y : lab2 := Lab2 3 4 [[0; 0; 0; 0]; [0; 1; 2; 0]; [0; 0; 0; 0]]%nat.
Example ex40_features :
  match picture_features ex40_x with
  | Ok m => map (fun f => Qnum (this (mget m 0 f))) (seq 0 7) = [0; 1; 1; 10; 0; 0; 1]%Z
  | Err _ => False
  end.
Proof. vm_compute. reflexivity. Qed.
(** the labels of the twelve pixels, then 3 + 1 for the picture; with [nCell] = 1 cell number 2 is not accepted *)
Example ex40_converted :
  match (let! p := prepare_picture ex40_x in let! pf := picture_features ex40_x in
         let! g := ty_setup 2 [3; 2]%nat [45; 7]%nat [[180; 45]; [45; 0]]%nat "ad3+" None in
         let! r := two_types 2 ex40_x (snd p) ex40_y pf 1 in
         let! c := ty_check_x g (fst r) in let! _ := ty_check_xy g (fst r) (snd r) in
         let! g1 := ty_setup 2 [2; 2]%nat [45; 7]%nat [[180; 45]; [45; 0]]%nat "ad3+" None in
         let! r1 := two_types 1 ex40_x (snd p) ex40_y pf 1 in
         Ok (snd r, length (x_edges 2 (fst r) 0 0), length (x_edges 2 (fst r) 0 1), ty_size g, ty_check_xy g1 (fst r1) (snd r1),
             let! q := swap_one [1; 0]%nat [3; 2]%nat [2; 3]%nat (fst r) (snd r) in Ok (snd q)))
  with
  | Ok v => v = ([0; 0; 0; 0; 0; 1; 2; 0; 0; 0; 0; 0; 4]%Z, 17%nat, 12%nat, (3 * 45 + 2 * 7 + 180 * 9 + 2 * (45 * 6))%nat,
                 Err InconsistentLabel, Ok [1; 2; 2; 2; 2; 2; 3; 4; 2; 2; 2; 2; 2]%Z)
  | Err _ => False
  end.
Proof. vm_compute. reflexivity. Qed.
Example ex40_hypotheses :
  one_hot_picture ex40_x /\ coloured ex40_x (1, 1)%nat /\ coloured ex40_x (1, 2)%nat /\ snake_labels 2 ex40_y /\ l_h ex40_y = a_h ex40_x /\ l_w ex40_y = a_w ex40_x.
Proof.
  split; [apply picture_one_hot; reflexivity|]. split; [|split; [|split; [|split; reflexivity]]].
  - split; [cbn; lia|]. split; [cbn; lia|]. intros E. apply (f_equal this) in E. vm_compute in E. discriminate E.
  - split; [cbn; lia|]. split; [cbn; lia|]. intros E. apply (f_equal this) in E. vm_compute in E. discriminate E.
  - intros s Hs. exists 1%nat, s. assert (C : s = 1%nat \/ s = 2%nat) by lia.
    destruct C as [-> | ->]; (split; [cbn; lia|]); (split; [cbn; lia|]); (split; [reflexivity|]);
      intros [|[|[|i]]] [|[|[|[|j]]]] Hi Hj E; cbn in Hi, Hj; try lia; try discriminate E; split; reflexivity.
Qed.
Example ex40_easy :
  match makeItEasy [mtab 1 7 (fun _ _ => ofN 5); mtab 1 7 (fun _ _ => ofN 6)] [1%Z] with
  | Ok [a; b] => map (fun f => (Qnum (this (mget a 0 f)), Qnum (this (mget b 0 f)))) (seq 0 7) = repeat (1, 6)%Z 7
  | _ => False
  end.
Proof. vm_compute. reflexivity. Qed.
Print Assumptions C79_picture_features.
Print Assumptions C79_picture_features_errors.
Print Assumptions C79_counts_total.
Print Assumptions C79_distortion_keeps.
Print Assumptions C79_easy_overwrites.
Print Assumptions C79_easy_error.
Print Assumptions C79_convert.
Print Assumptions C79_convert_error.
Print Assumptions C79_convert_score.
Print Assumptions C79_convert_all.
Print Assumptions C79_swapped_model.
Print Assumptions C79_swapped.
Print Assumptions C79_constraints.
Print Assumptions C79_constraints_atmostone.
Print Assumptions C79_constraints_all.
Print Assumptions C79_constraints_errors.
Print Assumptions C79_true_labels.
Print Assumptions C79_build_constraints.
Print Assumptions C79_tail_unconstrained_refuted.
