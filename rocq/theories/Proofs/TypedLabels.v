From Coq Require Import String ZArith.
From Verif Require Import Model.Typed Spec.TypedSpec Proofs.Arrays Proofs.LossProofs Proofs.TypedProofs.
#[local] Open Scope nat_scope.

(** ** _check_size_xy *)
Definition ranges_ok (y : list Z) (l : list (nat * nat * nat)) : Prop :=
  forall k i, k < length l -> i < fst (fst (nth k l (0, 0, 0))) ->
    let '(n, a, b) := nth k l (0, 0, 0) in
    (Z.of_nat a <= nth (before (map (fun q => fst (fst q)) l) k + i) y 0%Z < Z.of_nat b)%Z.
Lemma ranges_cons y n a b l : n <= length y ->
  (ranges_ok y ((n, a, b) :: l) <->
   (forall i, i < n -> (Z.of_nat a <= nth i y 0%Z < Z.of_nat b)%Z) /\ ranges_ok (skipn n y) l).
Proof.
  intro H. unfold ranges_ok. split.
  - intro R. split.
    + intros i Hi. specialize (R 0 i). cbn [length nth map fst] in R. rewrite before_0 in R. apply R; simpl; lia.
    + intros k i Hk Hi. specialize (R (S k) i). cbn [length nth map fst] in R. specialize (R ltac:(lia) Hi).
      destruct (nth k l (0, 0, 0)) as [[n' a'] b']. rewrite before_cons in R. rewrite nth_skipn.
      rewrite Nat.add_assoc. exact R.
  - intros [R1 R2] k i Hk Hi. destruct k as [|k]; cbn [nth map fst].
    + rewrite before_0. apply R1. exact Hi.
    + cbn [nth length] in *. specialize (R2 k i ltac:(lia) Hi). destruct (nth k l (0, 0, 0)) as [[n' a'] b'].
      rewrite before_cons. rewrite nth_skipn, Nat.add_assoc in R2. exact R2.
Qed.
Lemma check_types_spec l y : list_sum (map (fun q => fst (fst q)) l) <= length y ->
  (check_types y l = Ok tt <-> ranges_ok y l) /\
  (forall e, check_types y l = Err e -> e = ValueError \/ e = InconsistentLabel) /\
  (Forall (fun z => (0 <= z)%Z) y -> ~ ranges_ok y l -> check_types y l = Err InconsistentLabel).
Proof.
  revert y. induction l as [|[[n a] b] l IH]; intros y H.
  - cbn [check_types]. assert (R : ranges_ok y []) by (intros k i Hk; simpl in Hk; lia).
    split; [tauto|]. split; [discriminate|]. intros _ N. contradiction.
  - cbn [map list_sum fold_right fst] in H. change (fold_right Nat.add 0) with list_sum in H.
    assert (Hn : n <= length y) by lia.
    destruct (IH (skipn n y)) as [I1 [I2 I3]]; [rewrite skipn_length; lia|].
    assert (I3' : Forall (fun z => (0 <= z)%Z) y -> ~ ranges_ok (skipn n y) l -> check_types (skipn n y) l = Err InconsistentLabel).
    { intros P. apply I3. rewrite Forall_forall in P |- *. intros z Hz. apply P. rewrite <- (firstn_skipn n y). apply in_or_app. right. exact Hz. }
    rewrite ranges_cons by exact Hn. cbn [check_types]. destruct (Nat.eqb_spec n 0) as [->|N0].
    + change (skipn 0 y) with y in *. split; [|split; [exact I2|]].
      * rewrite I1. split; [intro R; split; [intros i Hi; lia|exact R]|tauto].
      * intros P N. apply I3'; [exact P|]. intro R. apply N. split; [intros i Hi; lia|exact R].
    + pose proof (forallb_firstn (fun z => (0 <=? z)%Z) n y 0%Z Hn) as F0.
      pose proof (forallb_firstn (fun z => (Z.of_nat a <=? z)%Z) n y 0%Z Hn) as F1.
      pose proof (forallb_firstn (fun z => (z <? Z.of_nat b)%Z) n y 0%Z Hn) as F2.
      destruct (forallb _ _) eqn:E0 in F0; rewrite E0; cbn [ensure bind].
      2:{ assert (K : exists i, i < n /\ (nth i y 0 < 0)%Z).
          { destruct (existsb (fun z => (z <? 0)%Z) (firstn n y)) eqn:X.
            - apply existsb_exists in X. destruct X as [z [Hz X]]. apply (In_nth _ _ 0%Z) in Hz. destruct Hz as [i [Hi <-]].
              rewrite firstn_length in Hi. exists i. split; [lia|]. rewrite nth_firstn in X by lia. apply Z.ltb_lt. exact X.
            - assert (forallb (fun z => (0 <=? z)%Z) (firstn n y) = true); [|congruence]. apply forallb_forall. intros z Hz.
              destruct (0 <=? z)%Z eqn:Y; [reflexivity|]. assert (existsb (fun z => (z <? 0)%Z) (firstn n y) = true); [|congruence].
              apply existsb_exists. exists z. split; [exact Hz|]. apply Z.ltb_lt. apply Z.leb_gt in Y. exact Y. }
          destruct K as [i [Hi Ki]]. split; [|split].
          - split; [discriminate|]. intros [R _]. specialize (R i Hi). lia.
          - intros e [= <-]. auto.
          - intros P. exfalso. rewrite Forall_forall in P. specialize (P (nth i y 0%Z) ltac:(apply nth_In; lia)). lia. }
      destruct (forallb _ _) eqn:E1 in F1; rewrite E1; cbn [ensure bind].
      2:{ split; [|split].
          - split; [discriminate|]. intros [R _]. exfalso. assert (false = true); [|discriminate]. apply F1. intros i Hi. apply Z.leb_le. apply R. exact Hi.
          - intros e [= <-]. auto.
          - auto. }
      destruct (forallb _ _) eqn:E2 in F2; rewrite E2; cbn [ensure bind].
      2:{ split; [|split].
          - split; [discriminate|]. intros [R _]. exfalso. assert (false = true); [|discriminate]. apply F2. intros i Hi. apply Z.ltb_lt. apply R. exact Hi.
          - intros e [= <-]. auto.
          - auto. }
      assert (R1 : forall i, i < n -> (Z.of_nat a <= nth i y 0%Z < Z.of_nat b)%Z).
      { intros i Hi. pose proof (proj1 F1 eq_refl i Hi) as A. pose proof (proj1 F2 eq_refl i Hi) as B. apply Z.leb_le in A. apply Z.ltb_lt in B. auto. }
      split; [|split; [exact I2|]].
      * rewrite I1. tauto.
      * intros P N. apply I3'; [exact P|]. tauto.
Qed.

Lemma node_rows g x : well_typed g -> length (ty_states g) <= length (tx_nodes x) ->
  map mrows (ty_node_features g x) = type_rows (length (ty_states g)) x.
Proof.
  intros W L. apply (nth_ext_d _ _ 0).
  - rewrite map_length, rows_length. apply node_features_length; assumption.
  - intros k Hk. rewrite map_length, node_features_length in Hk by assumption.
    rewrite (nth_map_in _ _ _ (Mat 0 0 [])) by (rewrite node_features_length; assumption).
    destruct (node_features_nth g x k W L Hk) as [-> _]. symmetry. apply rows_part. exact Hk.
Qed.
Lemma check_ranges g x y : well_typed g -> length (ty_states g) <= length (tx_nodes x) ->
  let n := length (ty_states g) in
  let l := combine (combine (type_rows n x) (firstn n (type_starts (ty_states g)))) (skipn 1 (type_starts (ty_states g))) in
  map (fun q => fst (fst q)) l = type_rows n x /\
  (ranges_ok y l <-> forall t i, t < n -> i < part (type_rows n x) t ->
     (Z.of_nat (before (ty_states g) t) <= nth (before (type_rows n x) t + i) y 0%Z < Z.of_nat (before (ty_states g) t + part (ty_states g) t))%Z).
Proof.
  intros W L n l.
  assert (LS : length (firstn n (type_starts (ty_states g))) = n) by (rewrite firstn_length, starts_length; fold n; lia).
  assert (LT : length (skipn 1 (type_starts (ty_states g))) = n) by (rewrite skipn_length, starts_length; fold n; lia).
  assert (LL : length l = n) by (unfold l; rewrite !combine_length, rows_length; lia).
  assert (NL : forall k, k < n -> nth k l (0, 0, 0) = (part (type_rows n x) k, before (ty_states g) k, before (ty_states g) k + part (ty_states g) k)).
  { intros k Hk. unfold l. rewrite nth_combine_d by (rewrite ?combine_length, ?rows_length; lia).
    rewrite nth_combine_d by (rewrite ?rows_length; lia). rewrite nth_firstn by exact Hk. rewrite nth_skipn.
    rewrite !starts_nth by (fold n; lia). cbn [Nat.add]. rewrite before_S by (fold n; lia). reflexivity. }
  assert (MR : map (fun q => fst (fst q)) l = type_rows n x).
  { apply (nth_ext_d _ _ 0); [rewrite map_length, LL, rows_length; reflexivity|]. intros k Hk. rewrite map_length, LL in Hk.
    rewrite (nth_map_in _ _ _ (0, 0, 0)) by lia. rewrite NL by exact Hk. reflexivity. }
  split; [exact MR|]. unfold ranges_ok. rewrite MR, LL. split.
  - intros R t i Ht Hi. specialize (R t i Ht). rewrite NL in R by exact Ht. cbn [fst snd] in R. apply R. exact Hi.
  - intros R k i Hk Hi. rewrite NL in * by exact Hk. cbn [fst snd] in Hi. apply R; assumption.
Qed.

Lemma check_xy_spec g x y : well_typed g -> length (ty_states g) <= length (tx_nodes x) ->
  let rows := type_rows (length (ty_states g)) x in
  (ty_check_xy g x y = Ok tt <-> typed_labelling (ty_states g) rows y) /\
  (forall e, ty_check_xy g x y = Err e -> e = ValueError \/ e = InconsistentLabel) /\
  (length y <> list_sum rows -> ty_check_xy g x y = Err ValueError) /\
  (length y = list_sum rows -> Forall (fun z => (0 <= z)%Z) y -> ~ typed_labelling (ty_states g) rows y ->
     ty_check_xy g x y = Err InconsistentLabel).
Proof.
  intros W L rows. unfold ty_check_xy, ty_types. rewrite node_rows by assumption. fold rows.
  destruct (check_ranges g x y W L) as [MR RR]. fold rows in MR, RR. set (l := combine (combine rows _) _) in *.
  unfold typed_labelling. destruct (Nat.eqb_spec (length y) (list_sum rows)) as [E|E]; cbn [ensure bind].
  - destruct (check_types_spec l y) as [C1 [C2 C3]]; [rewrite MR; lia|].
    split; [rewrite C1, RR; tauto|]. split; [exact C2|]. split; [intro; contradiction|].
    intros _ P N. apply C3; [exact P|]. rewrite RR. tauto.
  - split; [split; [discriminate|intros [A _]; contradiction]|]. split; [intros e [= <-]; auto|]. split; [reflexivity|]. intro; contradiction.
Qed.

(** ** flattenY and unflattenY *)
Lemma concat_blocks {A} (bs : list (list A)) t i d : t < length bs -> i < length (nth t bs []) ->
  nth (before (map (@length A) bs) t + i) (concat bs) d = nth i (nth t bs []) d.
Proof.
  revert t. induction bs as [|b bs IH]; intros t Ht Hi; [simpl in Ht; lia|]. destruct t as [|t].
  - cbn [map concat nth] in *. rewrite before_0. simpl. apply app_nth1. exact Hi.
  - cbn [map concat nth length] in *. rewrite before_cons. rewrite app_nth2 by lia.
    replace (length b + before (map (@length A) bs) t + i - length b) with (before (map (@length A) bs) t + i) by lia.
    apply IH; [lia|exact Hi].
Qed.
Lemma concat_len {A} (bs : list (list A)) : length (concat bs) = list_sum (map (@length A) bs).
Proof. induction bs; simpl; [reflexivity|]. rewrite app_length. lia. Qed.

Definition shifted (st : list nat) (lY : list (list Z)) : list (list Z) :=
  map (fun p => map (fun z => (z + Z.of_nat (fst p))%Z) (snd p)) (combine st lY).
Lemma shifted_lengths st lY : length lY <= length st -> map (@length Z) (shifted st lY) = map (@length Z) lY.
Proof.
  revert st. induction lY as [|a lY IH]; intros [|s st] H; simpl in *; try lia; auto.
  unfold shifted. simpl. rewrite map_length. f_equal. apply IH. lia.
Qed.
Lemma shifted_nth st lY t : t < length lY -> t < length st ->
  nth t (shifted st lY) [] = map (fun z => (z + Z.of_nat (nth t st O))%Z) (nth t lY []).
Proof.
  intros H1 H2. unfold shifted. rewrite (nth_map_in _ _ _ (0, [])) by (rewrite combine_length; lia).
  rewrite nth_combine_d by lia. reflexivity.
Qed.
Lemma flatten_ok g lY y : length lY = length (ty_states g) -> flattenY g lY = Ok y ->
  length y = list_sum (map (@length Z) lY) /\
  forall t i, t < length lY -> i < length (nth t lY []) ->
    nth (before (map (@length Z) lY) t + i) y 0%Z = (nth i (nth t lY []) 0 + Z.of_nat (before (ty_states g) t))%Z.
Proof.
  intros L H. unfold flattenY in H. fold (shifted (type_starts (ty_states g)) lY) in H.
  assert (LS : length lY <= length (type_starts (ty_states g))) by (rewrite starts_length; lia).
  assert (E : y = concat (shifted (type_starts (ty_states g)) lY)).
  { unfold hstack in H. destruct (shifted _ lY); [discriminate H|congruence]. }
  subst y. rewrite concat_len, shifted_lengths by exact LS. split; [reflexivity|]. intros t i Ht Hi.
  rewrite <- (shifted_lengths (type_starts (ty_states g)) lY LS).
  assert (LEN : length (shifted (type_starts (ty_states g)) lY) = length lY).
  { rewrite <- (map_length (@length Z)), shifted_lengths, map_length by exact LS. reflexivity. }
  rewrite concat_blocks; [|lia|rewrite shifted_nth by lia; rewrite map_length; exact Hi].
  rewrite shifted_nth by lia. rewrite (nth_map_in _ _ _ 0%Z) by exact Hi. rewrite starts_nth by lia. reflexivity.
Qed.
Lemma flatten_total g lY : length lY = length (ty_states g) -> 0 < length lY -> exists y, flattenY g lY = Ok y.
Proof.
  intros L H. unfold flattenY. destruct lY as [|a lY]; [simpl in H; lia|]. unfold type_starts. simpl. eexists. reflexivity.
Qed.
Lemma flatten_empty g : flattenY g [] = Err ValueError.
Proof. unfold flattenY. destruct (type_starts (ty_states g)); reflexivity. Qed.

Lemma zminus_shift c l : zminus (map (fun z => (z + Z.of_nat c)%Z) l) c = l.
Proof. unfold zminus. rewrite map_map. rewrite <- (map_id l) at 2. apply map_ext. intro. lia. Qed.
Lemma shift_zminus c l : map (fun z => (z + Z.of_nat c)%Z) (zminus l c) = l.
Proof. unfold zminus. rewrite map_map. rewrite <- (map_id l) at 2. apply map_ext. intro. lia. Qed.

(** sizes match: every type has an array with one row per label *)
Lemma unflatten_flatten_loop st nodes lY : length nodes = length lY -> length lY <= length st ->
  (forall t, t < length lY -> exists m, nth t nodes None = Some m /\ mrows m = length (nth t lY [])) ->
  unflatten_loop (combine st nodes) (concat (shifted st lY)) = Ok (lY, list_sum (map (@length Z) lY)).
Proof.
  revert st nodes. induction lY as [|a lY IH]; intros [|s st] [|o nodes] H1 H2 H3; simpl in H1, H2; try lia; try reflexivity.
  destruct (H3 0) as [m [E R]]; [simpl; lia|]. cbn [nth] in E, R. subst o. cbn [combine unflatten_loop].
  unfold shifted. cbn [combine map concat fst snd]. fold (shifted st lY).
  rewrite R, skipn_app, skipn_all2, map_length, Nat.sub_diag by (rewrite map_length; lia). cbn [app skipn].
  rewrite IH; [|lia|lia|intros t Ht; apply (H3 (S t)); simpl; lia]. cbn [bind fst snd].
  rewrite firstn_app, map_length, Nat.sub_diag, firstn_all2 by (rewrite map_length; lia). cbn [firstn]. rewrite app_nil_r, zminus_shift.
  cbn [map list_sum fold_right]. reflexivity.
Qed.
Lemma unflatten_flatten g x lY y : length lY = length (ty_states g) -> length (tx_nodes x) = length lY ->
  (forall t, t < length lY -> exists m, nth t (tx_nodes x) None = Some m /\ mrows m = length (nth t lY [])) ->
  flattenY g lY = Ok y -> unflattenY g x y = Ok lY.
Proof.
  intros L1 L2 H F. unfold flattenY in F. fold (shifted (type_starts (ty_states g)) lY) in F.
  assert (E : y = concat (shifted (type_starts (ty_states g)) lY)).
  { unfold hstack in F. destruct (shifted _ lY); [discriminate F|congruence]. }
  subst y. unfold unflattenY. rewrite unflatten_flatten_loop; [|exact L2|rewrite starts_length; lia|exact H]. cbn [bind fst snd].
  rewrite concat_len, shifted_lengths by (rewrite starts_length; lia). rewrite Nat.eqb_refl. reflexivity.
Qed.

Lemma unflatten_loop_inv l y r k : unflatten_loop l y = Ok (r, k) -> k <= length y ->
  length r = length l /\ concat (shifted (map fst l) r) = firstn k y.
Proof.
  revert y r k. induction l as [|[a [nf|]] l IH]; intros y r k H K; simpl in H; try discriminate H.
  - assert (r = [] /\ k = 0) as [-> ->] by (split; congruence). split; reflexivity.
  - destruct (unflatten_loop l (skipn (mrows nf) y)) as [[r' k']|e] eqn:E; cbn [bind fst snd] in H; [|discriminate H].
    assert (r = zminus (firstn (mrows nf) y) a :: r' /\ k = mrows nf + k') as [-> ->] by (split; congruence).
    destruct (IH _ _ _ E) as [I1 I2]; [rewrite skipn_length; lia|]. split; [simpl; congruence|].
    unfold shifted. cbn [map combine concat fst snd]. fold (shifted (map fst l) r'). rewrite I2, shift_zminus.
    rewrite <- (firstn_skipn (mrows nf) y) at 3. rewrite firstn_app, firstn_length, Nat.min_l by lia.
    replace (mrows nf + k' - mrows nf) with k' by lia. rewrite (firstn_all2 (n := mrows nf + k')) by (rewrite firstn_length; lia). reflexivity.
Qed.
Lemma shifted_prefix st st' lY : length lY <= length st -> shifted (st ++ st') lY = shifted st lY.
Proof.
  revert st. induction lY as [|a lY IH]; intros [|s st] H; simpl in *; try lia; unfold shifted; simpl; try reflexivity.
  - destruct st'; reflexivity.
  - f_equal. fold (shifted (st ++ st') lY). fold (shifted st lY). apply IH. lia.
Qed.
Lemma map_fst_combine {A B} (l : list A) (r : list B) : map fst (combine l r) = firstn (length r) l.
Proof. revert r. induction l; intros [|b r]; simpl; auto. f_equal. auto. Qed.
Lemma flatten_unflatten g x y lY : tx_nodes x <> [] -> unflattenY g x y = Ok lY -> flattenY g lY = Ok y.
Proof.
  intros NE H. unfold unflattenY in H. destruct (unflatten_loop _ y) as [[r k]|e] eqn:E; cbn [bind fst snd] in H; [|discriminate H].
  destruct (Nat.eqb_spec (length y) k) as [K|K]; cbn [ensure bind] in H; [|discriminate H]. assert (lY = r) by congruence. subst r.
  apply unflatten_loop_inv in E; [|lia]. destruct E as [E1 E2]. rewrite <- K, firstn_all in E2.
  unfold flattenY. fold (shifted (type_starts (ty_states g)) lY).
  rewrite combine_length in E1. rewrite map_fst_combine in E2.
  rewrite <- (firstn_skipn (length (tx_nodes x)) (type_starts (ty_states g))).
  rewrite shifted_prefix by (rewrite firstn_length; lia).
  assert (NN : shifted (firstn (length (tx_nodes x)) (type_starts (ty_states g))) lY <> []).
  { intro Q. apply (f_equal (@length _)) in Q. unfold shifted in Q. rewrite map_length, combine_length, firstn_length, starts_length in Q.
    rewrite starts_length in E1. cbn [length] in Q.
    assert (length (tx_nodes x) <> 0) by (destruct (tx_nodes x); [contradiction|discriminate]). lia. }
  unfold hstack. destruct (shifted _ lY); [contradiction|]. f_equal. exact E2.
Qed.
Lemma unflatten_length_mismatch g x y : Forall (fun o => exists m, o = Some m) (tx_nodes x) ->
  length (tx_nodes x) <= S (length (ty_states g)) ->
  length y <> list_sum (map (fun o => match o with Some m => mrows m | None => 0 end) (tx_nodes x)) ->
  unflattenY g x y = Err ValueError.
Proof.
  intros F L N. unfold unflattenY.
  assert (K : forall nodes st y, Forall (fun o => exists m : mat, o = Some m) nodes -> length nodes <= length st ->
     exists r, unflatten_loop (combine st nodes) y = Ok (r, list_sum (map (fun o => match o with Some m => mrows m | None => 0 end) nodes))).
  { clear. intros nodes. induction nodes as [|o nodes IH]; intros st y F L.
    - exists []. destruct st; reflexivity.
    - destruct st as [|s st]; [simpl in L; lia|]. inversion F as [|? ? [m ->] F']; subst. cbn [combine unflatten_loop].
      destruct (IH st (skipn (mrows m) y) F') as [r ->]; [simpl in L; lia|]. cbn [bind fst snd]. eexists. reflexivity. }
  destruct (K (tx_nodes x) (type_starts (ty_states g)) y F) as [r ->]; [rewrite starts_length; exact L|]. cbn [bind fst snd].
  destruct (Nat.eqb_spec (length y) (list_sum (map (fun o => match o with Some m => mrows m | None => 0 end) (tx_nodes x)))); [contradiction|reflexivity].
Qed.
Lemma unflatten_none g x y t : t < length (ty_states g) -> nth_error (tx_nodes x) t = Some None ->
  unflattenY g x y = Err AttributeError.
Proof.
  intros L N. unfold unflattenY.
  assert (K : forall st nodes y t, t < length st -> nth_error nodes t = Some None -> unflatten_loop (combine st nodes) y = Err AttributeError).
  { clear. intro st. induction st as [|s st IH]; intros [|o nodes] y [|t] L N; simpl in *; try lia; try discriminate.
    - injection N as ->. reflexivity.
    - destruct o as [m|]; [|reflexivity]. rewrite (IH nodes _ t) by (auto; lia). reflexivity. }
  rewrite (K _ _ _ t); [reflexivity|rewrite starts_length; lia|exact N].
Qed.

(** no collisions *)
Lemma ranges_disjoint states t1 t2 s1 s2 : t1 < length states -> t2 < length states -> s1 < part states t1 -> s2 < part states t2 ->
  before states t1 + s1 = before states t2 + s2 -> t1 = t2 /\ s1 = s2.
Proof.
  intros H1 H2 H3 H4 E. destruct (Nat.lt_trichotomy t1 t2) as [L|[L|L]].
  - pose proof (before_le states (S t1) t2 L). rewrite before_S in H by exact H1. lia.
  - subst t2. lia.
  - pose proof (before_le states (S t2) t1 L). rewrite before_S in H by exact H2. lia.
Qed.
Lemma flatten_no_collision g lY y t1 i1 t2 i2 : length lY = length (ty_states g) -> flattenY g lY = Ok y ->
  (forall t z, t < length lY -> In z (nth t lY []) -> (0 <= z < Z.of_nat (part (ty_states g) t))%Z) ->
  t1 < length lY -> i1 < length (nth t1 lY []) -> t2 < length lY -> i2 < length (nth t2 lY []) ->
  let pos t i := before (map (@length Z) lY) t + i in
  nth (pos t1 i1) y 0%Z = nth (pos t2 i2) y 0%Z ->
  t1 = t2 /\ nth i1 (nth t1 lY []) 0%Z = nth i2 (nth t2 lY []) 0%Z.
Proof.
  intros L F R H1 H2 H3 H4 pos E. destruct (flatten_ok g lY y L F) as [_ V]. unfold pos in E. rewrite !V in E by assumption.
  pose proof (R t1 _ H1 (nth_In _ 0%Z H2)) as R1. pose proof (R t2 _ H3 (nth_In _ 0%Z H4)) as R2.
  destruct (ranges_disjoint (ty_states g) t1 t2 (Z.to_nat (nth i1 (nth t1 lY []) 0%Z)) (Z.to_nat (nth i2 (nth t2 lY []) 0%Z))); lia.
Qed.
Lemma flatten_valid g x lY y : well_typed g -> length lY = length (ty_states g) -> length (ty_states g) <= length (tx_nodes x) ->
  (forall t, t < length lY -> x_rows x t = length (nth t lY [])) ->
  (forall t z, t < length lY -> In z (nth t lY []) -> (0 <= z < Z.of_nat (part (ty_states g) t))%Z) ->
  flattenY g lY = Ok y -> ty_check_xy g x y = Ok tt.
Proof.
  intros W L LN R V F. apply check_xy_spec; try assumption. destruct (flatten_ok g lY y L F) as [A B].
  assert (ROWS : type_rows (length (ty_states g)) x = map (@length Z) lY).
  { apply (nth_ext_d _ _ 0); [rewrite rows_length, map_length; lia|]. intros k Hk. rewrite rows_length in Hk.
    rewrite (nth_map_in _ _ _ []) by lia. change (nth k (type_rows (length (ty_states g)) x) 0) with (part (type_rows (length (ty_states g)) x) k).
    rewrite rows_part by exact Hk. apply R. lia. }
  rewrite ROWS. split; [exact A|]. intros t i Ht Hi. unfold part in Hi at 1. rewrite (nth_map_in _ _ _ []) in Hi by lia.
  rewrite B by (try assumption; lia). pose proof (V t _ ltac:(lia) (nth_In _ 0%Z Hi)). lia.
Qed.

(** ** initialize *)
Lemma initialize_list g X Y : ty_initialize g (inl X) Y = Ok tt.
Proof. reflexivity. Qed.
Lemma initialize_tuple g x y : well_typed g ->
  (ty_initialize g (inr x) (Some (inr y)) = Ok tt <->
   typed_instance g x /\ typed_labelling (ty_states g) (type_rows (length (ty_states g)) x) y).
Proof.
  intros W. unfold ty_initialize. pose proof (check_x_spec g x W) as C. destruct (ty_check_x g x) as [[]|e]; cbn [bind].
  - pose proof (proj1 C eq_refl) as T. pose proof T as [L _]. rewrite (proj1 (check_xy_spec g x y W L)). tauto.
  - split; [discriminate|]. intros [T _]. apply C in T. discriminate.
Qed.
