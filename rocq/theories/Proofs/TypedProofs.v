From Coq Require Import String ZArith.
From Verif Require Import Model.Typed Spec.TypedSpec Proofs.Arrays Proofs.LossProofs.
#[local] Open Scope nat_scope.

(** ** lists *)
Lemma before_0 l : before l 0 = 0. Proof. reflexivity. Qed.
Lemma before_cons a l t : before (a :: l) (S t) = a + before l t. Proof. reflexivity. Qed.
Lemma before_S l t : t < length l -> before l (S t) = before l t + part l t.
Proof.
  unfold before, part. revert l. induction t; intros [|a l] H; simpl in H; try lia; [simpl; lia|].
  change (firstn (S (S t)) (a :: l)) with (a :: firstn (S t) l). change (firstn (S t) (a :: l)) with (a :: firstn t l).
  cbn [list_sum fold_right nth]. change (fold_right Nat.add 0) with list_sum. rewrite IHt by lia. lia.
Qed.
Lemma before_all l t : length l <= t -> before l t = list_sum l.
Proof. intro H. unfold before. rewrite firstn_all2 by exact H. reflexivity. Qed.
Lemma before_le l t u : t <= u -> before l t <= before l u.
Proof.
  revert t u. induction l; intros t u H; unfold before in *.
  - rewrite !firstn_nil. lia.
  - destruct t as [|t]; [simpl; lia|]. destruct u as [|u]; [lia|]. simpl. specialize (IHl t u). lia.
Qed.
Lemma before_part_le l t : t < length l -> before l t + part l t <= list_sum l.
Proof. intro H. rewrite <- before_S by exact H. rewrite <- (before_all l (length l)) by lia. apply before_le. lia. Qed.
Lemma starts_nth l t : t <= length l -> nth t (type_starts l) 0 = before l t.
Proof. intro H. unfold type_starts. rewrite (nth_map_seq _ _ _ 0) by lia. reflexivity. Qed.
Lemma starts_length l : length (type_starts l) = S (length l).
Proof. unfold type_starts. rewrite map_length, seq_length. reflexivity. Qed.
Lemma nth_combine_d {A B} (l : list A) (r : list B) k a b : k < length l -> k < length r ->
  nth k (combine l r) (a, b) = (nth k l a, nth k r b).
Proof. revert r k. induction l; intros [|c r] [|k] H1 H2; simpl in *; try lia; auto. apply IHl; lia. Qed.
Lemma rows_length n x : length (type_rows n x) = n.
Proof. unfold type_rows. rewrite map_length, seq_length. reflexivity. Qed.
Lemma rows_part n x t : t < n -> part (type_rows n x) t = x_rows x t.
Proof. intro H. unfold part, type_rows. rewrite (nth_map_seq _ _ _ 0) by exact H. reflexivity. Qed.
Lemma nth_ext_d {A} (l r : list A) d : length l = length r -> (forall k, k < length l -> nth k l d = nth k r d) -> l = r.
Proof. intros H1 H2. apply (nth_ext l r d d); auto. Qed.
Lemma forallb_firstn {A} (p : A -> bool) n l d : n <= length l ->
  (forallb p (firstn n l) = true <-> forall i, i < n -> p (nth i l d) = true).
Proof.
  intro H. rewrite forallb_forall. split.
  - intros F i Hi. apply F. rewrite <- (nth_firstn l n i d) by exact Hi. apply nth_In. rewrite firstn_length. lia.
  - intros F x Hx. apply (In_nth _ _ d) in Hx. destruct Hx as [i [Hi <-]]. rewrite firstn_length in Hi.
    rewrite nth_firstn by lia. apply F. lia.
Qed.

(** ** constructor *)
Lemma setup_ok n st fe ne m cw g : ty_setup n st fe ne m cw = Ok g ->
  well_typed g /\ ty_states g = st /\ ty_features g = fe /\ ty_edge_features g = ne /\ length st = n /\
  ty_method g = m /\ ty_exception g = false /\ (m = "ad3"%string \/ m = "ad3+"%string) /\
  ty_weights g = match cw with Some (c :: r) => c :: r | _ => map (fun n => repeat 1%Qc n) st end.
Proof.
  unfold ty_setup. intro H.
  destruct (_ && _ && _)%bool eqn:E1 in H; [|discriminate H]. cbn [ensure bind] in H.
  destruct (forallb _ (seq 0 n)) eqn:E2 in H; [|discriminate H]. cbn [ensure bind] in H.
  destruct (_ || _)%bool eqn:E3 in H; [|discriminate H]. cbn [ensure bind] in H.
  destruct (_ =? _)%nat eqn:E4 in H; [|discriminate H]. cbn [ensure bind] in H.
  destruct (_ =? _)%nat eqn:E5 in H; [|discriminate H]. cbn [ensure bind] in H.
  apply Nat.eqb_eq in E4, E5. apply andb_true_iff in E1. destruct E1 as [E1 E1c]. apply andb_true_iff in E1. destruct E1 as [E1a E1b].
  apply Nat.ltb_lt in E1a. apply Nat.eqb_eq in E1b.
  assert (M : m = "ad3"%string \/ m = "ad3+"%string).
  { apply orb_true_iff in E3. destruct E3 as [E3|E3]; apply String.eqb_eq in E3; auto. }
  assert (W : exists w, g = TyCRF st fe ne w m false /\ length w = n /\ (forall t, t < n -> length (nth t w []) = part st t) /\
     w = match cw with Some (c :: r) => c :: r | _ => map (fun n => repeat 1%Qc n) st end).
  { destruct cw as [[|c r]|]; [| |].
    - cbn [bind] in H. exists (map (fun n => repeat 1%Qc n) st). split; [congruence|]. rewrite map_length. split; [exact E4|]. split; [|reflexivity].
      intros t Ht. rewrite (nth_map_in _ _ _ 0) by lia. apply repeat_length.
    - destruct (length (c :: r) =? n)%nat eqn:E6 in H; [|discriminate H]. cbn [ensure bind] in H.
      destruct (forallb _ _) eqn:E7 in H; [|discriminate H]. cbn [ensure bind] in H. apply Nat.eqb_eq in E6.
      exists (c :: r). split; [congruence|]. split; [exact E6|]. split; [|reflexivity]. intros t Ht.
      rewrite forallb_forall in E7. assert (I : In (nth t (combine (c :: r) st) ([], 0)) (combine (c :: r) st)).
      { apply nth_In. rewrite combine_length. lia. }
      rewrite nth_combine_d in I by lia. apply E7 in I. cbn [fst snd] in I. apply Nat.eqb_eq in I. exact I.
    - cbn [bind] in H. exists (map (fun n => repeat 1%Qc n) st). split; [congruence|]. rewrite map_length. split; [exact E4|]. split; [|reflexivity].
      intros t Ht. rewrite (nth_map_in _ _ _ 0) by lia. apply repeat_length. }
  destruct W as [w [-> [W1 [W2 W3]]]]. cbn [ty_states ty_features ty_edge_features ty_weights ty_method ty_exception].
  split; [|repeat (split; [solve [auto]|]); auto].
  unfold well_typed. cbn [ty_states ty_features ty_edge_features ty_weights]. rewrite E4.
  split; [lia|]. split; [exact E5|]. split; [exact E1b|]. split.
  { apply Forall_forall. intros r Hr. rewrite forallb_forall in E1c. apply E1c in Hr. apply Nat.eqb_eq in Hr. exact Hr. }
  split. { intros i j Hi Hj. rewrite forallb_forall in E2. specialize (E2 i). rewrite in_seq in E2. specialize (E2 ltac:(lia)).
    rewrite forallb_forall in E2. specialize (E2 j). rewrite in_seq in E2. specialize (E2 ltac:(lia)). apply Nat.eqb_eq in E2. exact E2. }
  split; [exact W1|exact W2].
Qed.

Lemma setup_complete n st fe ne m cw : 0 < n -> length st = n -> length fe = n -> length ne = n ->
  Forall (fun r => length r = n) ne ->
  (forall i j, i < n -> j < n -> nth j (nth i ne []) 0 = nth i (nth j ne []) 0) ->
  m = "ad3"%string \/ m = "ad3+"%string ->
  (forall c, cw = Some c -> c = [] \/ (length c = n /\ forall t, t < n -> length (nth t c []) = part st t)) ->
  exists g, ty_setup n st fe ne m cw = Ok g.
Proof.
  intros H0 H1 H2 H3 H4 H5 H6 H7. unfold ty_setup.
  rewrite ensure_true.
  2:{ apply andb_true_iff. split; [apply andb_true_iff; split; [apply Nat.ltb_lt; exact H0|apply Nat.eqb_eq; exact H3]|].
      apply forallb_forall. intros r Hr. rewrite Forall_forall in H4. apply Nat.eqb_eq. auto. }
  cbn [bind]. rewrite ensure_true.
  2:{ apply forallb_forall. intros i Hi. apply forallb_forall. intros j Hj. apply in_seq in Hi, Hj. apply Nat.eqb_eq. apply H5; lia. }
  cbn [bind]. rewrite ensure_true.
  2:{ destruct H6 as [->| ->]; reflexivity. }
  cbn [bind]. rewrite !ensure_true by (apply Nat.eqb_eq; assumption). cbn [bind].
  destruct cw as [[|c r]|]; try (eexists; reflexivity).
  destruct (H7 _ eq_refl) as [H8|[H8 H9]]; [discriminate H8|].
  rewrite ensure_true by (apply Nat.eqb_eq; exact H8). cbn [bind]. rewrite ensure_true; [eexists; reflexivity|].
  apply forallb_forall. intros q Hq. apply (In_nth _ _ ([], 0)) in Hq. destruct Hq as [k [Hk <-]].
  rewrite combine_length in Hk. rewrite nth_combine_d by lia. apply Nat.eqb_eq. apply H9. lia.
Qed.

Lemma setup_bad_method n st fe ne m cw : m <> "ad3"%string -> m <> "ad3+"%string ->
  forall g, ty_setup n st fe ne m cw <> Ok g.
Proof. intros H1 H2 g E. apply setup_ok in E. destruct E as (_ & _ & _ & _ & _ & _ & _ & [M|M] & _); auto. Qed.

(** ** instances *)
Lemma node_features_length g x : well_typed g -> length (ty_states g) <= length (tx_nodes x) ->
  length (ty_node_features g x) = length (ty_states g).
Proof. intros [_ [H _]] L. unfold ty_node_features. rewrite map_length, combine_length. lia. Qed.
Lemma node_features_nth g x t : well_typed g -> length (ty_states g) <= length (tx_nodes x) -> t < length (ty_states g) ->
  let m := nth t (ty_node_features g x) (Mat 0 0 []) in
  mrows m = x_rows x t /\ (forall i f, mget m i f = x_feat x t i f) /\
  (mcols m = match nth t (tx_nodes x) None with Some m => mcols m | None => part (ty_features g) t end).
Proof.
  intros [_ [H _]] L Ht. unfold ty_node_features. rewrite (nth_map_in _ _ _ (None, 0)) by (rewrite combine_length; lia).
  rewrite nth_combine_d by lia. cbn [fst snd]. unfold x_rows, x_feat, part.
  destruct (nth t (tx_nodes x) None) as [m|]; cbn [mrows mcols]; repeat split. intros i f. unfold mget, get2. simpl. destruct i, f; reflexivity.
Qed.
Lemma concat_length_const {A} (l : list (list A)) n : Forall (fun r => length r = n) l -> length (concat l) = length l * n.
Proof. induction 1; simpl; [reflexivity|]. rewrite app_length. lia. Qed.
Lemma concat_nth_const {A} (l : list (list A)) n a b d : Forall (fun r => length r = n) l -> b < n -> a < length l ->
  nth (a * n + b) (concat l) d = nth b (nth a l []) d.
Proof.
  intro F. revert a. induction F as [|r l Hr F IH]; intros a Hb Ha; [simpl in Ha; lia|].
  destruct a as [|a]; simpl.
  - rewrite app_nth1 by lia. reflexivity.
  - rewrite app_nth2 by lia. rewrite Hr. replace (n + a * n + b - n) with (a * n + b) by lia. apply IH; [exact Hb|simpl in Ha; lia].
Qed.
Lemma pair_lt a b n : a < n -> b < n -> a * n + b < n * n.
Proof. nia. Qed.
Lemma edge_feats_length g x : well_typed g -> length (ty_states g) * length (ty_states g) <= length (tx_edge_features x) ->
  length (ty_edge_feats g x) = length (ty_states g) * length (ty_states g).
Proof.
  intros (_ & _ & H1 & H2 & _) L. unfold ty_edge_feats. rewrite map_length, combine_length.
  rewrite (concat_length_const _ _ H2), H1. lia.
Qed.
Lemma edge_feats_nth g x a b : well_typed g -> length (ty_states g) * length (ty_states g) <= length (tx_edge_features x) ->
  a < length (ty_states g) -> b < length (ty_states g) ->
  let n := length (ty_states g) in
  let m := nth (a * n + b) (ty_edge_feats g x) (Mat 0 0 []) in
  mrows m = x_edge_rows n x a b /\ (forall i f, mget m i f = x_edge_feat n x a b i f) /\
  (mcols m = match nth (a * n + b) (tx_edge_features x) None with Some m => mcols m | None => part (nth a (ty_edge_features g) []) b end).
Proof.
  intros (_ & _ & H1 & H2 & _) L Ha Hb. cbv zeta. set (n := length (ty_states g)) in *.
  pose proof (pair_lt a b n Ha Hb) as P.
  unfold ty_edge_feats. rewrite (nth_map_in _ _ _ (None, 0)) by (rewrite combine_length, (concat_length_const _ _ H2), H1; fold n; lia).
  rewrite nth_combine_d by (rewrite ?(concat_length_const _ _ H2), ?H1; fold n; lia). cbn [fst snd].
  rewrite (concat_nth_const _ n) by (auto; lia). unfold x_edge_rows, x_edge_feat, part.
  destruct (nth (a * n + b) (tx_edge_features x) None) as [m|]; cbn [mrows mcols]; repeat split.
  intros i f. unfold mget, get2. simpl. destruct i, f; reflexivity.
Qed.
Lemma edges_nth n x a b : nth (a * n + b) (ty_edges x) [] = x_edges n x a b.
Proof.
  unfold ty_edges, x_edges. destruct (Nat.lt_ge_cases (a * n + b) (length (tx_edges x))) as [H|H].
  - rewrite (nth_map_in _ _ _ None) by exact H. reflexivity.
  - rewrite !nth_overflow by (rewrite ?map_length; exact H). reflexivity.
Qed.

Lemma edge_in_spec n1 n2 e : edge_in n1 n2 e = true <->
  (0 <= fst e < Z.of_nat n1)%Z /\ (0 <= snd e < Z.of_nat n2)%Z.
Proof. unfold edge_in. rewrite !andb_true_iff, !Z.leb_le, !Z.ltb_lt. lia. Qed.

Lemma pairs_in n a b : In (a, b) (type_pairs n) <-> a < n /\ b < n.
Proof. unfold type_pairs. rewrite in_prod_iff, !in_seq. lia. Qed.

Lemma mapM_unit {A} (f : A -> res unit) l : (exists r, mapM f l = Ok r) <-> forall a, In a l -> f a = Ok tt.
Proof.
  induction l as [|a l IH]; simpl; [split; [intros _ a []|eexists; reflexivity]|]. split.
  - intros [r H]. destruct (f a) as [[]|] eqn:E; [|discriminate H]. cbn [bind] in H.
    destruct (mapM f l) as [r'|] eqn:E'; [|discriminate H]. intros b [->|Hb]; [exact E|]. apply IH; eauto.
  - intro H. rewrite (H a) by auto. cbn [bind]. destruct (proj2 IH) as [r ->]; [auto|]. eexists; reflexivity.
Qed.
Lemma ensure_true_inv (b : bool) e u : ensure b e = Ok u -> b = true.
Proof. destruct b; [reflexivity|discriminate]. Qed.

Lemma check_nodes_spec g x : well_typed g -> length (tx_edges x) = length (ty_states g) * length (ty_states g) ->
  (ty_check_nodes g x = Ok tt <->
   length (ty_states g) <= length (tx_nodes x) /\
   (forall t m, t < length (ty_states g) -> nth t (tx_nodes x) None = Some m -> mcols m = part (ty_features g) t) /\
   (forall a b, a < length (ty_states g) -> b < length (ty_states g) ->
     Forall (fun e => (0 <= fst e < Z.of_nat (x_rows x a))%Z /\ (0 <= snd e < Z.of_nat (x_rows x b))%Z)
       (x_edges (length (ty_states g)) x a b))).
Proof.
  intros W LE. pose proof W as [N0 [LF _]]. set (n := length (ty_states g)) in *. unfold ty_check_nodes, ty_types. fold n.
  assert (KN : length (ty_node_features g x) = n <-> n <= length (tx_nodes x)).
  { split; intro H.
    - unfold ty_node_features in H. rewrite map_length, combine_length in H. lia.
    - apply node_features_length; assumption. }
  destruct (length (ty_node_features g x) =? n)%nat eqn:E1; cbn [ensure bind].
  2:{ apply Nat.eqb_neq in E1. split; [discriminate|]. intros [A _]. apply KN in A. contradiction. }
  apply Nat.eqb_eq in E1. pose proof (proj1 KN E1) as LN.
  assert (KC : forallb (fun p => mcols (fst p) =? snd p)%nat (combine (ty_node_features g x) (ty_features g)) = true <->
     forall t m, t < n -> nth t (tx_nodes x) None = Some m -> mcols m = part (ty_features g) t).
  { rewrite forallb_forall. split.
    - intros F t m Ht Em. assert (I : In (nth t (combine (ty_node_features g x) (ty_features g)) (Mat 0 0 [], 0)) (combine (ty_node_features g x) (ty_features g))).
      { apply nth_In. rewrite combine_length. lia. }
      rewrite nth_combine_d in I by lia. apply F in I. cbn [fst snd] in I. apply Nat.eqb_eq in I.
      destruct (node_features_nth g x t W LN Ht) as [_ [_ C]]. rewrite C, Em in I. exact I.
    - intros F q Hq. apply (In_nth _ _ (Mat 0 0 [], 0)) in Hq. destruct Hq as [t [Ht <-]]. rewrite combine_length in Ht.
      rewrite nth_combine_d by lia. cbn [fst snd]. apply Nat.eqb_eq.
      destruct (node_features_nth g x t W LN ltac:(fold n; lia)) as [_ [_ C]]. rewrite C.
      destruct (nth t (tx_nodes x) None) as [m|] eqn:Em; [|reflexivity]. apply F; [lia|exact Em]. }
  destruct (forallb _ (combine _ _)) eqn:E2; cbn [ensure bind].
  2:{ split; [discriminate|]. intros [_ [B _]]. apply KC in B. congruence. }
  pose proof (proj1 KC eq_refl) as HC. set (f := fun p : nat * nat => _).
  assert (KE : (forall p, In p (type_pairs n) -> f p = Ok tt) <->
    forall a b, a < n -> b < n ->
     Forall (fun e => (0 <= fst e < Z.of_nat (x_rows x a))%Z /\ (0 <= snd e < Z.of_nat (x_rows x b))%Z) (x_edges n x a b)).
  { assert (K1 : forall a b, a < n -> b < n -> (f (a, b) = Ok tt <->
      Forall (fun e => (0 <= fst e < Z.of_nat (x_rows x a))%Z /\ (0 <= snd e < Z.of_nat (x_rows x b))%Z) (x_edges n x a b))).
    { intros a b Ha Hb. unfold f. cbn [fst snd]. unfold x_edges.
      destruct (node_features_nth g x a W LN Ha) as [-> _]. destruct (node_features_nth g x b W LN Hb) as [-> _].
      rewrite (nth_error_nth' (tx_edges x) None) by (rewrite LE; apply pair_lt; assumption).
      destruct (nth (a * n + b) (tx_edges x) None) as [es|]; [|split; auto]. split.
      - intro H. apply ensure_true_inv in H. rewrite forallb_forall in H. apply Forall_forall. intros e He. apply edge_in_spec; auto.
      - intro H. apply ensure_true. rewrite forallb_forall. rewrite Forall_forall in H. intros e He. apply edge_in_spec; auto. }
    split.
    - intros H a b Ha Hb. apply K1; auto. apply H, pairs_in. auto.
    - intros H [a b] Hp. apply pairs_in in Hp. destruct Hp as [Ha Hb]. apply K1; auto. }
  destruct (mapM f (type_pairs n)) as [r|e] eqn:E3; cbn [bind].
  - split; [|reflexivity]. intros _. split; [exact LN|]. split; [exact HC|]. apply KE, mapM_unit. eauto.
  - split; [discriminate|]. intros [_ [_ D]]. pose proof (proj2 (mapM_unit f _) (proj2 KE D)) as [r R]. congruence.
Qed.

Lemma check_x_spec g x : well_typed g -> (ty_check_x g x = Ok tt <-> typed_instance g x).
Proof.
  intros W. pose proof W as [N0 [LF [L2 [L3 _]]]]. unfold ty_check_x, typed_instance, ty_types. set (n := length (ty_states g)) in *.
  unfold ty_edges at 1. rewrite map_length.
  destruct (length (tx_edges x) =? n * n)%nat eqn:E1; cbn [ensure bind].
  2:{ apply Nat.eqb_neq in E1. split; [discriminate|]. intros (_ & A & _). contradiction. }
  apply Nat.eqb_eq in E1.
  destruct (length (ty_edge_feats g x) =? n * n)%nat eqn:E2; cbn [ensure bind].
  2:{ apply Nat.eqb_neq in E2. split; [discriminate|]. intros (_ & _ & A & _). exfalso. apply E2, edge_feats_length; assumption. }
  apply Nat.eqb_eq in E2.
  assert (LE : n * n <= length (tx_edge_features x)).
  { unfold ty_edge_feats in E2. rewrite map_length, combine_length in E2. lia. }
  pose proof (check_nodes_spec g x W E1) as KN. fold n in KN.
  destruct (ty_check_nodes g x) as [[]|e] eqn:E3; cbn [bind].
  2:{ split; [discriminate|]. intros (A & _ & _ & B & C). exfalso. assert (Err e = Ok tt) by (apply KN; split; [exact A|]; split; [exact B|]; intros a b Ha Hb; apply C; auto). discriminate. }
  destruct (proj1 KN eq_refl) as [A [B C]]. clear KN.
  destruct (forallb _ (combine _ _)) eqn:E4; cbn [ensure bind].
  2:{ split; [discriminate|]. intros (_ & _ & _ & _ & D). exfalso.
      assert (T : forallb (fun q : list (Z * Z) * mat => length (fst q) =? mrows (snd q)) (combine (ty_edges x) (ty_edge_feats g x)) = true); [|congruence].
      apply forallb_forall. intros q Hq. apply (In_nth _ _ ([], Mat 0 0 [])) in Hq. destruct Hq as [k [Hk <-]].
      rewrite combine_length in Hk. unfold ty_edges in Hk. rewrite map_length in Hk. rewrite nth_combine_d by (unfold ty_edges; rewrite ?map_length; lia).
      cbn [fst snd]. apply Nat.eqb_eq. rewrite (Nat.div_mod k n) by lia. rewrite (Nat.mul_comm n).
      assert (k / n < n) by (apply Nat.div_lt_upper_bound; lia). assert (k mod n < n) by (apply Nat.mod_upper_bound; lia).
      rewrite edges_nth. destruct (edge_feats_nth g x (k / n) (k mod n) W LE ltac:(assumption) ltac:(assumption)) as [R _]. fold n in R. rewrite R.
      destruct (D (k / n) (k mod n)) as [_ [D2 _]]; auto. }
  rewrite forallb_forall in E4.
  assert (KR : forall a b, a < n -> b < n -> x_edge_rows n x a b = length (x_edges n x a b)).
  { intros a b Ha Hb. pose proof (pair_lt a b n Ha Hb) as P.
    assert (I : In (nth (a * n + b) (combine (ty_edges x) (ty_edge_feats g x)) ([], Mat 0 0 [])) (combine (ty_edges x) (ty_edge_feats g x))).
    { apply nth_In. rewrite combine_length. unfold ty_edges. rewrite map_length. lia. }
    rewrite nth_combine_d in I by (unfold ty_edges; rewrite ?map_length; lia). apply E4 in I. cbn [fst snd] in I. apply Nat.eqb_eq in I.
    rewrite edges_nth in I. destruct (edge_feats_nth g x a b W LE Ha Hb) as [R _]. fold n in R. rewrite R in I. auto. }
  split.
  - intro H. apply ensure_true_inv in H. rewrite forallb_forall in H. split; [exact A|]. split; [exact E1|]. split; [exact LE|]. split; [exact B|].
    intros a b Ha Hb. split; [apply C; auto|]. split; [apply KR; auto|]. intros m Em.
    specialize (H (a, b)). rewrite pairs_in in H. specialize (H (conj Ha Hb)). cbn [fst snd] in H. apply Nat.eqb_eq in H.
    destruct (edge_feats_nth g x a b W LE Ha Hb) as [_ [_ R]]. fold n in R. rewrite Em in R. rewrite R in H. exact H.
  - intros (_ & _ & _ & _ & D). apply ensure_true. apply forallb_forall. intros [a b] Hp. apply pairs_in in Hp. destruct Hp as [Ha Hb].
    cbn [fst snd]. apply Nat.eqb_eq. destruct (edge_feats_nth g x a b W LE Ha Hb) as [_ [_ R]]. fold n in R. rewrite R.
    destruct (D a b Ha Hb) as [_ [_ D3]]. destruct (nth (a * n + b) (tx_edge_features x) None) as [m|]; [apply D3; reflexivity|reflexivity].
Qed.
Lemma check_x_error g x e : well_typed g -> ty_check_x g x = Err e -> e = ValueError.
Proof.
  intros W H. unfold ty_check_x in H. destruct (_ =? _)%nat eqn:E1 in H; [|cbn in H; congruence]. cbn [ensure bind] in H.
  destruct (_ =? _)%nat eqn:E2 in H; [|cbn in H; congruence]. cbn [ensure bind] in H.
  destruct (ty_check_nodes g x) as [u|e'] eqn:E3; cbn [bind] in H.
  - destruct (forallb _ _) eqn:E4 in H; [|cbn in H; congruence]. cbn [ensure bind] in H.
    destruct (forallb _ _) in H; cbn in H; congruence.
  - assert (e' = e) by congruence. subst e'. clear H. unfold ty_check_nodes in E3.
    destruct (_ =? _)%nat eqn:E4 in E3; [|cbn in E3; congruence]. cbn [ensure bind] in E3.
    destruct (forallb _ _) eqn:E5 in E3; [|cbn in E3; congruence]. cbn [ensure bind] in E3.
    destruct (mapM _ _) eqn:E6 in E3; [discriminate E3|]. assert (e0 = e) by (cbn in E3; congruence). subst e0. clear E3.
    assert (IN : forall p, In p (type_pairs (ty_types g)) -> fst p < ty_types g /\ snd p < ty_types g).
    { intros [a b]. apply pairs_in. }
    revert IN E6. generalize (type_pairs (ty_types g)) as l. induction l as [|p l IH]; intros IN E6; [discriminate E6|].
    cbn [mapM] in E6. destruct (nth_error (tx_edges x) (fst p * ty_types g + snd p)) as [[es|]|] eqn:En in E6.
    + destruct (forallb _ es) in E6; cbn [ensure bind] in E6; [|congruence]. destruct (mapM _ l) eqn:El in E6; [discriminate E6|].
      apply IH; [intros q Hq; apply IN; right; exact Hq|]. cbn in E6. congruence.
    + cbn [bind] in E6. destruct (mapM _ l) eqn:El in E6; [discriminate E6|].
      apply IH; [intros q Hq; apply IN; right; exact Hq|]. cbn in E6. congruence.
    + exfalso. apply nth_error_None in En. destruct (IN p ltac:(left; reflexivity)). apply Nat.eqb_eq in E1. unfold ty_edges in E1.
      rewrite map_length in E1. pose proof (pair_lt (fst p) (snd p) (ty_types g) ltac:(assumption) ltac:(assumption)). lia.
Qed.
