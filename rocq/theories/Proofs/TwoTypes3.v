(** Proofs for C79, third part: the functions as a whole. *)
From Coq Require Import String ZArith Lia.
From Verif Require Import Spec.TwoTypesSpec Proofs.Arrays Proofs.Snakes Proofs.HiddenSnakes2 Proofs.SwapTypes Proofs.SwapTypes2
  Proofs.SwapTypes3 Proofs.TypedProofs Proofs.SwapTypes4 Proofs.TwoTypes Proofs.TwoTypes2 Proofs.TypedLabels Proofs.TypedScore.
Local Open Scope nat_scope.

Lemma convert_ok (nCell : nat) (x : arr3) (d e : ef_x) (lbl : lab2) (pf : mat) (pl : Z) (meth : string)
      (cw : option (list (list Qc))) (g : ty_crf) :
  ty_setup 2 [nCell + 1; 2] [45; 7] [[180; 45]; [45; 0]] meth cw = Ok g ->
  prepare_picture x = Ok (d, e) -> l_h lbl = a_h x -> l_w lbl = a_w x -> mrows pf = 1 -> mcols pf = 7 ->
  exists tx y, two_types nCell x e lbl pf pl = Ok (tx, y) /\
    tx_nodes tx = [Some (ex_features e); Some pf] /\
    x_edges 2 tx 0 0 = map (fun ab => (Z.of_nat (fst ab), Z.of_nat (snd ab))) (ex_edges e) /\
    x_edges 2 tx 0 1 = map (fun k => (Z.of_nat k, 0%Z)) (seq 0 (a_h x * a_w x)) /\
    x_edges 2 tx 1 0 = [] /\ x_edges 2 tx 1 1 = [] /\
    length y = a_h x * a_w x + 1 /\
    (forall i j, i < a_h x -> j < a_w x -> nth (i * a_w x + j) y 0%Z = Z.of_nat (lget lbl i j)) /\
    nth (a_h x * a_w x) y 0%Z = (pl + Z.of_nat nCell + 1)%Z /\
    ty_check_x g tx = Ok tt /\ typed_instance g tx /\
    (ty_check_xy g tx y = Ok tt <-> (forall i j, i < l_h lbl -> j < l_w lbl -> lget lbl i j <= nCell) /\ (0 <= pl <= 1)%Z).
Proof.
  rewrite Nat.add_1_r. intros G P Lh Lw Fr Fc. apply setup_crf in G. pose proof G as [W [Es _]].
  destruct (prepared _ _ _ P) as [m [M [F _]]]. destruct (patch_shape _ _ M) as [_ [Rm _]].
  pose proof (two_types_eq nCell x d e lbl pf pl m P M) as E.
  eexists. eexists. split; [exact E|]. split; [cbn [tx_nodes]; rewrite F; reflexivity|]. split; [reflexivity|].
  split; [rewrite <- Rm; reflexivity|]. split; [reflexivity|]. split; [reflexivity|].
  split; [rewrite <- Rm; apply (y_length nCell x lbl pl m M Lh Lw)|].
  split. { intros i j Hi Hj. rewrite (y_pixel nCell x lbl pl m M Lh Lw).
    - rewrite <- Lw, ravel_nth by congruence. reflexivity.
    - rewrite Rm. apply flat_lt; assumption. }
  split; [rewrite <- Rm; apply (y_picture nCell x lbl pl m M Lh Lw)|].
  pose proof (tx_instance nCell x d e lbl pf m P M Lh Lw Fr Fc g G) as I.
  split; [apply check_x_spec; assumption|]. split; [exact I|].
  match goal with |- ty_check_xy g ?X ?Y = _ <-> _ => pose proof (check_xy_spec g X Y W ltac:(rewrite Es; cbn; lia)) as [CX _] end.
  rewrite CX, Es. cbn [length].
  apply (tx_labelling nCell x e lbl pf pl m M Lh Lw Fr Fc).
Qed.
Lemma convert_error (nCell : nat) (x : arr3) (e : ef_x) (lbl : lab2) (pf : mat) (pl : Z) :
  a_h x * a_w x = 0 \/ (a_c x <> 5 /\ a_c x <> 1) -> two_types nCell x e lbl pf pl = Err ValueError.
Proof. intros H. unfold two_types. rewrite (patch_errors x H). reflexivity. Qed.

Lemma convert_score (nCell : nat) (x : arr3) (d e : ef_x) (m : mat) (lbl : lab2) (pf : mat) (pl : Z) (meth : string)
      (cw : option (list (list Qc))) (g : ty_crf) (tx : typed_x) (y : list Z) (w : list Qc) :
  ty_setup 2 [nCell + 1; 2] [45; 7] [[180; 45]; [45; 0]] meth cw = Ok g ->
  prepare_picture x = Ok (d, e) -> neighborhood_feature x = Ok m ->
  l_h lbl = a_h x -> l_w lbl = a_w x -> mrows pf = 1 -> mcols pf = 7 ->
  (forall i j, i < l_h lbl -> j < l_w lbl -> lget lbl i j <= nCell) -> (0 <= pl <= 1)%Z ->
  two_types nCell x e lbl pf pl = Ok (tx, y) -> length w = ty_size g ->
  let K := nCell + 1 in let n := a_h x * a_w x in let wp := pixel_weights K w in
  let L k := lget lbl (k / a_w x) (k mod a_w x) in
  ty_score g tx w y =
  (score n (ex_edges e) (fun k s => unary_score 45 wp (mget (ex_features e) k) s)
     (fun i s t => edge_score 180 K 45 wp (mget (ex_edge_features e) i) s t) L +
   sumn 7 (fun f => mget pf 0 f * get1 w (K * 45 + (Z.to_nat pl * 7 + f))) +
   sumn n (fun k => sumn 45 (fun f =>
     mget m k f * get1 w (K * 45 + 2 * 7 + 180 * (K * K) + (f * (K * 2) + (L k * 2 + Z.to_nat pl))))))%Qc.
Proof.
  rewrite Nat.add_1_r. intros G P M Lh Lw Fr Fc Hl Hp E Hw K n wp L. apply setup_crf in G.
  rewrite (two_types_eq nCell x d e lbl pf pl m P M) in E. apply Ok_inj in E. injection E as <- <-.
  destruct (prepared _ _ _ P) as [m0 [M0 [F [_ [R _]]]]]. rewrite M in M0. apply Ok_inj in M0. subst m0. rewrite F.
  destruct (patch_shape _ _ M) as [_ [Rm _]]. fold n in Rm.
  rewrite (tx_score nCell x d e lbl pf pl m P M Lh Lw Fr Fc g w G Hw Hp Hl). fold K. rewrite Rm.
  assert (EL : forall k, k < n -> lab (lab_ravel lbl) k = L k).
  { intros k Hk. unfold L. destruct (flat_cell _ _ _ Hk) as [a [b [Ha [Hb ->]]]].
    rewrite Nat.div_add_l, Nat.div_small, Nat.add_0_r by lia. rewrite Nat.add_comm, Nat.mod_add, Nat.mod_small by lia.
    unfold lab. rewrite Nat.add_comm, <- Lw. apply ravel_nth; congruence. }
  unfold score. f_equal; [f_equal; f_equal|].
  - apply sumn_ext. intros k Hk. rewrite (EL k Hk). reflexivity.
  - apply sumn_ext. intros i Hi. rewrite Forall_forall in R. destruct (R _ (nth_In (ex_edges e) (0, 0) Hi)) as [R1 R2]. rewrite Rm in R1, R2.
    rewrite !EL by assumption. reflexivity.
  - apply sumn_ext. intros k Hk. rewrite (EL k Hk). reflexivity.
Qed.

(** ** Constraints hold for the labels of pictures with and without a snake, and only for them *)
Lemma labels_constraints (nCell : nat) (x : arr3) (d e : ef_x) (lbl : lab2) (pf : mat) (pl : Z) (tx : typed_x) (y : list Z) :
  1 <= nCell -> prepare_picture x = Ok (d, e) -> l_h lbl = a_h x -> l_w lbl = a_w x -> mrows pf = 1 -> (0 <= pl <= 1)%Z ->
  two_types nCell x e lbl pf pl = Ok (tx, y) ->
  let states := typed_lab [nCell + 1; 2] (type_rows 2 tx) y in
  exists cs, listConstraints nCell [tx] = Ok [cs] /\
    (all_satisfied states cs <-> (pl = 1%Z /\ snake_labels nCell lbl) \/ (pl = 0%Z /\ no_labels lbl)) /\
  exists cs', listConstraints_ATMOSTONE nCell [tx] = Ok [cs'] /\
    (all_satisfied states cs' <-> forall s i j i' j', 1 <= s <= nCell -> i < l_h lbl -> j < l_w lbl -> i' < l_h lbl -> j' < l_w lbl ->
       lget lbl i j = s -> lget lbl i' j' = s -> i = i' /\ j = j').
Proof.
  rewrite Nat.add_1_r. intros HN P Lh Lw Fr Hp E states. destruct (prepared _ _ _ P) as [m [M [F _]]].
  rewrite (two_types_eq nCell x d e lbl pf pl m P M) in E. apply Ok_inj in E. injection E as <- <-.
  destruct (patch_shape _ _ M) as [_ [Rm _]].
  assert (S0 : forall k, k < mrows m -> states 0 k = nth k (lab_ravel lbl) 0) by (intros k Hk; apply (tx_lab_pixel nCell x e lbl pf pl m M Lh Lw Fr k Hk)).
  assert (S1 : states 1 0 = Z.to_nat pl) by apply (tx_lab_picture nCell x e lbl pf pl m M Lh Lw Fr).
  clearbody states.
  assert (CELL : forall i j, i < l_h lbl -> j < l_w lbl -> i * l_w lbl + j < mrows m /\ states 0 (i * l_w lbl + j) = lget lbl i j).
  { intros i j Hi Hj. assert (K : i * l_w lbl + j < mrows m) by (rewrite Rm, <- Lh, <- Lw; apply flat_lt; assumption).
    split; [exact K|]. rewrite (S0 _ K). apply ravel_nth; assumption. }
  assert (INV : forall k, k < mrows m -> exists i j, i < l_h lbl /\ j < l_w lbl /\ k = i * l_w lbl + j).
  { intros k Hk. apply flat_cell. rewrite Lh, Lw, <- Rm. exact Hk. }
  assert (INJ : forall i j i' j', j < l_w lbl -> j' < l_w lbl -> i * l_w lbl + j = i' * l_w lbl + j' -> i = i' /\ j = j').
  { intros i j i' j' Hj Hj' H. assert (W0 : l_w lbl <> 0) by lia.
    assert (D : (i * l_w lbl + j) / l_w lbl = (i' * l_w lbl + j') / l_w lbl) by (rewrite H; reflexivity).
    rewrite !Nat.div_add_l, !Nat.div_small in D by lia. split; [lia|]. assert (i = i') by lia. subst i'. lia. }
  eexists. split; [cbn [listConstraints mapM two_nodes tx_nodes]; reflexivity|]. cbn [fst]. split.
  - rewrite snake_constraints_iff by (rewrite S1; lia). rewrite S1. split.
    + intros [[H1 H2]|[H1 [_ H2]]].
      * right. split; [lia|]. intros i j Hi Hj. destruct (CELL i j Hi Hj) as [K <-]. exact (H2 _ K).
      * left. split; [lia|]. intros s Hs. destruct (H2 s Hs) as [k [Hk [Ek U]]]. destruct (INV k Hk) as [i [j [Hi [Hj ->]]]].
        exists i, j. destruct (CELL i j Hi Hj) as [K V]. split; [exact Hi|]. split; [exact Hj|]. split; [congruence|].
        intros i' j' Hi' Hj' E'. destruct (CELL i' j' Hi' Hj') as [K' V']. apply INJ; try assumption. apply U; [exact K'|congruence].
    + intros [[-> H]|[-> H]].
      * right. split; [reflexivity|]. split.
        -- destruct (H 1 ltac:(lia)) as [i [j [Hi [Hj [Ev _]]]]]. destruct (CELL i j Hi Hj) as [K V]. exists (i * l_w lbl + j). split; [exact K|]. rewrite V, Ev. lia.
        -- intros s Hs. destruct (H s Hs) as [i [j [Hi [Hj [Ev U]]]]]. destruct (CELL i j Hi Hj) as [K V]. exists (i * l_w lbl + j).
           split; [exact K|]. split; [congruence|]. intros k' Hk' Ek'. destruct (INV k' Hk') as [i' [j' [Hi' [Hj' ->]]]].
           destruct (CELL i' j' Hi' Hj') as [_ V']. destruct (U i' j' Hi' Hj') as [-> ->]; [congruence|reflexivity].
      * left. split; [reflexivity|]. intros k Hk. destruct (INV k Hk) as [i [j [Hi [Hj ->]]]]. destruct (CELL i j Hi Hj) as [_ ->]. apply H; assumption.
  - eexists. split; [cbn [listConstraints_ATMOSTONE mapM two_nodes tx_nodes]; reflexivity|]. cbn [fst]. rewrite atmostone_iff. split.
    + intros H s i j i' j' Hs Hi Hj Hi' Hj' E1 E2. destruct (CELL i j Hi Hj) as [K V]. destruct (CELL i' j' Hi' Hj') as [K' V'].
      apply INJ; try assumption. apply (H s Hs); congruence.
    + intros H s Hs k k' Hk Hk' E1 E2. destruct (INV k Hk) as [i [j [Hi [Hj ->]]]]. destruct (INV k' Hk') as [i' [j' [Hi' [Hj' ->]]]].
      destruct (CELL i j Hi Hj) as [_ V]. destruct (CELL i' j' Hi' Hj') as [_ V'].
      destruct (H s i j i' j' Hs Hi Hj Hi' Hj') as [-> ->]; congruence.
Qed.
Lemma list_constraints_all (ncell : nat) (lX : list typed_x) :
  Forall (fun x => exists a b, tx_nodes x = [Some a; Some b]) lX ->
  listConstraints ncell lX = Ok (map (fun x => snake_constraints ncell (x_rows x 0)) lX) /\
  listConstraints_ATMOSTONE ncell lX = Ok (map (fun x => atmostone_constraints ncell (x_rows x 0)) lX).
Proof.
  induction 1 as [|x lX [a [b E]] _ [IH1 IH2]]; [split; reflexivity|]. unfold listConstraints, listConstraints_ATMOSTONE in *. cbn [mapM map].
  rewrite IH1, IH2. unfold two_nodes, x_rows. rewrite E. split; reflexivity.
Qed.

Lemma list_constraints_error (ncell : nat) (lX lX' : list typed_x) (x : typed_x) :
  Forall (fun x => (exists a b, tx_nodes x = [Some a; b])) lX ->
  (forall b, tx_nodes x = [None; b] ->
     listConstraints ncell (lX ++ x :: lX') = Err TypeError /\ listConstraints_ATMOSTONE ncell (lX ++ x :: lX') = Err TypeError) /\
  (length (tx_nodes x) <> 2%nat ->
     listConstraints ncell (lX ++ x :: lX') = Err ValueError /\ listConstraints_ATMOSTONE ncell (lX ++ x :: lX') = Err ValueError).
Proof.
  intro F. assert (K : forall e, two_nodes x = Err e -> listConstraints ncell (lX ++ x :: lX') = Err e /\ listConstraints_ATMOSTONE ncell (lX ++ x :: lX') = Err e).
  { intros e E. unfold listConstraints, listConstraints_ATMOSTONE. induction F as [|q lX [a [b Q]] _ [IH1 IH2]]; cbn [app mapM]; [rewrite E; split; reflexivity|].
    rewrite IH1, IH2. unfold two_nodes. rewrite Q. destruct b; split; reflexivity. }
  split.
  - intros b E. apply K. unfold two_nodes. rewrite E. reflexivity.
  - intro E. apply K. unfold two_nodes. destruct (tx_nodes x) as [|[a|] [|[b|] [|c l]]]; cbn in E; try reflexivity; lia.
Qed.

(** ** All pictures *)
Lemma convert_all (nCell : nat) (X : list arr3) (D : list ef_x) (Y : list lab2) (PF : list mat) (PL : list Z) :
  (forall lX lY, convertToTwoType nCell X D Y PF PL = Ok (lX, lY) ->
     length lX = Nat.min (Nat.min (Nat.min (Nat.min (length X) (length D)) (length Y)) (length PF)) (length PL) /\ length lY = length lX /\
     forall k x d lbl pf pl, nth_error X k = Some x -> nth_error D k = Some d -> nth_error Y k = Some lbl -> nth_error PF k = Some pf ->
       nth_error PL k = Some pl ->
       exists tx y, nth_error lX k = Some tx /\ nth_error lY k = Some y /\ two_types nCell x d lbl pf pl = Ok (tx, y)) /\
  ((forall k x d lbl pf pl, nth_error X k = Some x -> nth_error D k = Some d -> nth_error Y k = Some lbl -> nth_error PF k = Some pf ->
      nth_error PL k = Some pl -> exists r, two_types nCell x d lbl pf pl = Ok r) ->
   exists r, convertToTwoType nCell X D Y PF PL = Ok r).
Proof.
  unfold convertToTwoType. split.
  - intros lX lY E. destruct (mapM _ _) as [r|] eqn:Er; [|discriminate E]. cbn [bind] in E. apply Ok_inj in E. injection E as <- <-.
    pose proof (LossProofs.mapM_length _ _ _ Er) as Len. rewrite !combine_length in Len. rewrite !map_length. split; [exact Len|]. split; [reflexivity|].
    intros k x d lbl pf pl E1 E2 E3 E4 E5.
    pose proof (nth_error_combine _ _ _ _ _ (nth_error_combine _ _ _ _ _ (nth_error_combine _ _ _ _ _ (nth_error_combine _ _ _ _ _ E1 E2) E3) E4) E5) as N.
    revert N Er. generalize (combine (combine (combine (combine X D) Y) PF) PL). clear. intros l. revert r k.
    induction l as [|q l IH]; intros r k N Er; [destruct k; discriminate N|]. cbn [mapM] in Er.
    destruct q as [[[[x0 d0] l0] f0] p0] eqn:Q. destruct (two_types nCell x0 d0 l0 f0 p0) as [[tx y]|] eqn:T; [|discriminate Er]. cbn [bind] in Er.
    destruct (mapM _ l) as [r'|] eqn:Er'; [|discriminate Er]. cbn [bind] in Er. apply Ok_inj in Er. subst r.
    destruct k as [|k]; cbn [nth_error] in N.
    + injection N as <- <- <- <- <-. exists tx, y. cbn [map fst snd nth_error]. split; [reflexivity|]. split; [reflexivity|exact T].
    + cbn [map nth_error]. exact (IH r' k N eq_refl).
  - intros H. cut (exists r, mapM (fun q => let '(x, d, lbl, pf, pl) := q in two_types nCell x d lbl pf pl) (combine (combine (combine (combine X D) Y) PF) PL) = Ok r).
    { intros [r ->]. eexists. reflexivity. }
    assert (H' : forall q, In q (combine (combine (combine (combine X D) Y) PF) PL) ->
                 exists r, (let '(x, d, lbl, pf, pl) := q in two_types nCell x d lbl pf pl) = Ok r).
    { intros q I. apply In_nth_error in I as [k I]. destruct q as [[[[x d] lbl] pf] pl].
      apply nth_error_combine_inv in I as [I E5]. apply nth_error_combine_inv in I as [I E4]. apply nth_error_combine_inv in I as [I E3].
      apply nth_error_combine_inv in I as [E1 E2]. exact (H k x d lbl pf pl E1 E2 E3 E4 E5). }
    revert H'. generalize (combine (combine (combine (combine X D) Y) PF) PL). clear. induction l as [|q l IH]; intros H; [exists []; reflexivity|].
    cbn [mapM]. destruct (H q (or_introl eq_refl)) as [r ->]. destruct IH as [r' ->]; [intros; apply H; right; assumption|]. eexists. reflexivity.
Qed.

(** ** After the exchange of the types *)
Lemma renumber_snake nCell meth g : ty_setup 2 [nCell + 1; 2] [45; 7] [[180; 45]; [45; 0]] meth None = Ok g ->
  ty_setup 2 [2; nCell + 1] [7; 45] [[0; 45]; [45; 180]] meth None = Ok (renumber [1; 0] g).
Proof.
  intros E. destruct (setup_ok _ _ _ _ _ _ _ E) as [W [A [B [C [_ [D [F [G H]]]]]]]].
  unfold renumber. rewrite A, B, C, D, F, H. unfold part. cbn [map nth].
  destruct G as [-> | ->]; reflexivity.
Qed.
Lemma swapped (nCell : nat) (x : arr3) (d e : ef_x) (lbl : lab2) (pf : mat) (pl : Z) (meth : string)
      (cw : option (list (list Qc))) (g : ty_crf) (tx : typed_x) (y : list Z) :
  ty_setup 2 [nCell + 1; 2] [45; 7] [[180; 45]; [45; 0]] meth cw = Ok g ->
  prepare_picture x = Ok (d, e) -> l_h lbl = a_h x -> l_w lbl = a_w x -> mrows pf = 1 -> mcols pf = 7 ->
  (forall i j, i < l_h lbl -> j < l_w lbl -> lget lbl i j <= nCell) -> (0 <= pl <= 1)%Z ->
  two_types nCell x e lbl pf pl = Ok (tx, y) ->
  exists tx' y', swap_one [1; 0] [nCell + 1; 2] [2; nCell + 1] tx y = Ok (tx', y') /\
    tx_nodes tx' = [Some pf; Some (ex_features e)] /\
    typed_instance (renumber [1; 0] g) tx' /\ typed_labelling [2; nCell + 1] (type_rows 2 tx') y' /\
    length y' = 1 + a_h x * a_w x /\ nth 0 y' 0%Z = pl /\
    (forall i j, i < a_h x -> j < a_w x -> nth (1 + (i * a_w x + j)) y' 0%Z = (Z.of_nat (lget lbl i j) + 2)%Z) /\
    forall w, length w = ty_size g -> ty_score (renumber [1; 0] g) tx' (renumber_weights [1; 0] g w) y' = ty_score g tx w y.
Proof.
  rewrite Nat.add_1_r. intros G P Lh Lw Fr Fc Hl Hp E. apply setup_crf in G. pose proof G as [W [Es [Ef Ee]]].
  destruct (prepared _ _ _ P) as [m [M [F _]]]. destruct (patch_shape _ _ M) as [_ [Rm _]].
  rewrite (two_types_eq nCell x d e lbl pf pl m P M) in E. apply Ok_inj in E. injection E as <- <-.
  pose proof (tx_instance nCell x d e lbl pf m P M Lh Lw Fr Fc g G) as I.
  pose proof (proj2 (tx_labelling nCell x e lbl pf pl m M Lh Lw Fr Fc) (conj Hl Hp)) as T.
  pose proof (tx_rows e pf m Fr) as TR.
  pose proof (y_pixel nCell x lbl pl m M Lh Lw) as YP. pose proof (y_picture nCell x lbl pl m M Lh Lw) as YN.
  pose proof (y_length nCell x lbl pl m M Lh Lw) as YL.
  set (tx := TypedX _ _ _) in *. set (y := (map Z.of_nat (lab_ravel lbl) ++ _)%list) in *. clearbody y.
  assert (V : involution 2 [1; 0]) by (split; [reflexivity|]; intros [|[|t]] H; try lia; unfold part; cbn; lia).
  assert (FN : full_nodes 2 tx) by (split; [reflexivity|]; repeat constructor; eexists; reflexivity).
  pose proof (swap_main g [1; 0] tx y) as SM. cbv zeta in SM. rewrite Es in SM. cbn [length] in SM.
  destruct (SM W V I FN T) as [tx' [y' [E1 [R [SS [W' [I' [T' [_ SC]]]]]]]]]. clear SM.
  assert (ES : ty_states (renumber [1; 0] g) = [2; S nCell]) by (unfold renumber; cbn [ty_states]; rewrite Es; reflexivity).
  rewrite ES in *.
  exists tx', y'. split; [exact E1|].
  destruct R as [R1 [_ [_ [R4 _]]]].
  assert (ND : tx_nodes tx' = [Some pf; Some m]).
  { pose proof (R4 0 ltac:(lia)) as A0. pose proof (R4 1 ltac:(lia)) as A1. unfold part in A0, A1. cbn in A0, A1.
    destruct (tx_nodes tx') as [|a [|b [|c l]]]; try discriminate R1. cbn in A0, A1. congruence. }
  split; [rewrite F; exact ND|]. split; [exact I'|]. split; [exact T'|].
  destruct SS as [SL SV]. split; [rewrite SL, YL, Rm; lia|].
  assert (TR' : type_rows 2 tx' = [1; mrows m]).
  { unfold type_rows, x_rows. rewrite ND. cbn [seq map nth]. rewrite Fr. reflexivity. }
  rewrite TR, TR' in SV.
  split; [|split].
  - specialize (SV 0 0 ltac:(lia)). unfold part in SV. cbn [nth map] in SV. change (x_rows tx 1) with (mrows pf) in SV. specialize (SV ltac:(lia)).
    unfold before in SV. cbn [firstn list_sum fold_right] in SV. rewrite !Nat.add_0_r in SV.
    rewrite YN in SV. rewrite SV. lia.
  - intros i j Hi Hj. assert (K : i * a_w x + j < mrows m) by (rewrite Rm; apply flat_lt; assumption).
    specialize (SV 1 (i * a_w x + j) ltac:(lia)). unfold part in SV. cbn [nth map] in SV. change (x_rows tx 0) with (mrows m) in SV. specialize (SV K).
    unfold before in SV. cbn [firstn list_sum fold_right Nat.add] in SV. cbn [Nat.add]. rewrite (YP _ K) in SV. rewrite SV.
    rewrite <- Lw at 1. rewrite ravel_nth by congruence. lia.
  - intros w Hw. exact (proj2 (SC w Hw)).
Qed.
