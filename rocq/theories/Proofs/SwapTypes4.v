From Coq Require Import String ZArith Permutation.
From Verif Require Import Model.SwapTypes Spec.SwapTypesSpec Proofs.Arrays Proofs.LossProofs
  Proofs.TypedProofs Proofs.TypedLabels Proofs.TypedScore Proofs.TypedJoint Proofs.TypedLoss Proofs.SwapTypes Proofs.SwapTypes2 Proofs.SwapTypes3.
#[local] Open Scope nat_scope.

Lemma involution_back n p (l : list nat) : involution n p -> length l = n -> map (part (map (part l) p)) p = l.
Proof.
  intros [L H] LL. apply (nth_ext_d _ _ 0); [rewrite map_length; congruence|]. intros t Ht. rewrite map_length, L in Ht.
  rewrite (nth_map_in _ _ _ 0) by lia. destruct (H t Ht) as [B E]. unfold part in *. rewrite (nth_map_in _ _ _ 0) by lia. rewrite E. reflexivity.
Qed.
Lemma renumbered_back n p x x' : involution n p -> renumbered n p x x' -> length (tx_nodes x) = n -> length (tx_edges x) = n * n ->
  length (tx_edge_features x) = n * n -> renumbered n p x' x.
Proof.
  intros [L H] (R1 & R2 & R3 & R4 & R5) L1 L2 L3. split; [exact L1|]. split; [exact L2|]. split; [exact L3|]. split.
  - intros t Ht. destruct (H t Ht) as [B E]. rewrite R4 by exact B. rewrite E. reflexivity.
  - intros a b Ha Hb. destruct (H a Ha) as [Ba Ea]. destruct (H b Hb) as [Bb Eb]. destruct (R5 _ _ Ba Bb) as [E1 E2]. rewrite E1, E2, Ea, Eb. split; reflexivity.
Qed.
Lemma renumbered_unique n p x x1 x2 : renumbered n p x x1 -> renumbered n p x x2 -> x1 = x2.
Proof.
  intros (A1 & A2 & A3 & A4 & A5) (B1 & B2 & B3 & B4 & B5). destruct x1 as [n1 e1 f1], x2 as [n2 e2 f2]. simpl in *.
  assert (K : forall k, k < n * n -> exists a b, a < n /\ b < n /\ k = a * n + b).
  { intros k Hk. destruct (split_index n k Hk) as [H1 [H2 H3]]. exists (k / n), (k mod n). auto. }
  f_equal.
  - apply (nth_ext_d _ _ None); [congruence|]. intros k Hk. rewrite A4, B4 by lia. reflexivity.
  - apply (nth_ext_d _ _ None); [congruence|]. intros k Hk. rewrite A2 in Hk. destruct (K k Hk) as [a [b [Ha [Hb ->]]]].
    rewrite (proj1 (A5 a b Ha Hb)), (proj1 (B5 a b Ha Hb)). reflexivity.
  - apply (nth_ext_d _ _ None); [congruence|]. intros k Hk. rewrite A3 in Hk. destruct (K k Hk) as [a [b [Ha [Hb ->]]]].
    rewrite (proj2 (A5 a b Ha Hb)), (proj2 (B5 a b Ha Hb)). reflexivity.
Qed.
Lemma same_states_back n p states x x' y y' : involution n p -> length states = n -> renumbered n p x x' ->
  same_states n p states x x' y y' -> same_states n p (map (part states) p) x' x y' y.
Proof.
  intros I LS R [L N]. pose proof I as [LP H]. split; [congruence|]. intros t i Ht Hi. destruct (H t Ht) as [B E].
  rewrite (renumbered_rows n p x x' (part p t) R B), E in Hi.
  rewrite N; [|exact B|rewrite E; exact Hi]. rewrite E. rewrite (involution_back n p states I LS). lia.
Qed.

Lemma swap_twice states p x y x' y' : let n := length states in involution n p -> full_nodes n x ->
  length (tx_edges x) = n * n -> length (tx_edge_features x) = n * n -> typed_labelling states (type_rows n x) y ->
  swap_one p states (map (part states) p) x y = Ok (x', y') ->
  swap_one p (map (part states) p) states x' y' = Ok (x, y).
Proof.
  intros n I F E1 E2 Y H. pose proof (involution_permutes n p I) as P. pose proof I as [LP _].
  destruct (swap_involution states p x y I F ltac:(fold n; lia) ltac:(fold n; lia) Y) as [x1 [y1 [E [R [F' S]]]]]. fold n in R, F', S.
  assert (X1 : x1 = x') by congruence. assert (Y1 : y1 = y') by congruence. subst x1 y1.
  destruct (same_states_labelling n p states x x' y y' eq_refl P R Y S) as [Y' _].
  assert (LS : length (map (part states) p) = n) by (rewrite map_length; exact LP).
  pose proof R as (R1 & R2 & R3 & _).
  pose proof (swap_involution (map (part states) p) p x' y') as SW. cbv zeta in SW. rewrite LS in SW.
  destruct (SW I F' ltac:(lia) ltac:(lia) Y') as [x2 [y2 [E' [R' [_ S']]]]]. rewrite (involution_back n p states I eq_refl) in E'.
  rewrite E'. pose proof (renumbered_back n p x x' I R (proj1 F) E1 E2) as RB. pose proof (renumbered_unique n p x' x2 x R' RB) as ->.
  pose proof (same_states_back n p states x x' y y' I eq_refl R S) as SB.
  rewrite (same_states_unique n p (map (part states) p) x' x y' y2 y P RB) with (2 := S') (3 := SB); [reflexivity|]. apply Y'.
Qed.

(** ** scores, losses and best labellings *)
Section Iso.
  Variables (g : ty_crf) (p : list nat) (x x' : typed_x).
  Let n := length (ty_states g).
  Hypothesis W : well_typed g.
  Hypothesis I : involution n p.
  Hypothesis T : typed_instance g x.
  Hypothesis F : full_nodes n x.
  Hypothesis R : renumbered n p x x'.
  Hypothesis F' : full_nodes n x'.
  Let P : permutes n p := involution_permutes n p I.

  (** every labelling of the renumbered instance comes from one of the original *)
  Lemma labelling_back y' : typed_labelling (ty_states (renumber p g)) (type_rows n x') y' ->
    exists y, typed_labelling (ty_states g) (type_rows n x) y /\ same_states n p (ty_states g) x x' y y'.
  Proof.
    intro Y'. pose proof R as (R1 & R2 & R3 & _). change (ty_states (renumber p g)) with (map (part (ty_states g)) p) in Y'.
    assert (LS : length (map (part (ty_states g)) p) = n) by (rewrite map_length; exact (proj1 I)).
    pose proof (swap_involution (map (part (ty_states g)) p) p x' y') as SW. cbv zeta in SW. rewrite LS in SW.
    destruct (SW I F' ltac:(lia) ltac:(lia) Y') as [x2 [y2 [_ [R' [F2 S']]]]].
    destruct (same_states_labelling n p _ x' x2 y' y2 LS P R' Y' S') as [Y2 _]. rewrite (involution_back n p (ty_states g) I eq_refl) in Y2.
    pose proof (same_states_back n p _ x' x2 y' y2 I LS R' S') as SB. rewrite (involution_back n p (ty_states g) I eq_refl) in SB.
    assert (RR : forall t, t < n -> x_rows x2 t = x_rows x t).
    { intros t Ht. destruct (proj2 I t Ht) as [B E]. rewrite (renumbered_rows n p x' x2 t R' Ht), (renumbered_rows n p x x' _ R B), E. reflexivity. }
    assert (ER : type_rows n x2 = type_rows n x) by (unfold type_rows; apply map_ext_in; intros t Ht; apply in_seq in Ht; apply RR; lia).
    exists y2. rewrite ER in Y2. split; [exact Y2|]. destruct SB as [L N]. split; [exact L|]. intros t i Ht Hi.
    rewrite N; [rewrite ER; reflexivity|exact Ht|rewrite RR by (apply I, Ht); exact Hi].
  Qed.
  Lemma best_back w y y' : length w = ty_size g -> typed_labelling (ty_states g) (type_rows n x) y -> same_states n p (ty_states g) x x' y y' ->
    (best_labelling g x w y <-> best_labelling (renumber p g) x' (renumber_weights p g w) y').
  Proof.
    intros LW Y S. destruct (same_states_labelling n p (ty_states g) x x' y y' eq_refl P R Y S) as [Y' _].
    unfold best_labelling. rewrite (n' g p P). fold n. split; intros [_ B]; split; try assumption.
    - intros z' Z'. destruct (labelling_back z' Z') as [z [Z SZ]].
      rewrite (score_renumbered g p W P w LW x x' z z' T R Z SZ), (score_renumbered g p W P w LW x x' y y' T R Y S). apply B, Z.
    - intros z Z. destruct (swap_involution (ty_states g) p x z I F) as [x2 [z' [_ [R2 [_ SZ]]]]]; [apply Nat.eq_le_incl; symmetry; apply T|apply T|exact Z|].
      fold n in R2, SZ. pose proof (renumbered_unique n p x x2 x' R2 R) as ->.
      destruct (same_states_labelling n p (ty_states g) x x' z z' eq_refl P R Z SZ) as [Z' _].
      rewrite <- (score_renumbered g p W P w LW x x' z z' T R Z SZ), <- (score_renumbered g p W P w LW x x' y y' T R Y S). apply B, Z'.
  Qed.
  Local Open Scope Qc_scope.
  Lemma errors_renumbered y z y' z' : typed_labelling (ty_states g) (type_rows n x) y -> typed_labelling (ty_states g) (type_rows n x) z ->
    same_states n p (ty_states g) x x' y y' -> same_states n p (ty_states g) x x' z z' ->
    label_errors (renumber p g) y' z' = label_errors g y z.
  Proof.
    intros Y Z SY SZ. destruct (same_states_labelling n p (ty_states g) x x' y y' eq_refl P R Y SY) as [Y' LB].
    pose proof SY as [_ NY]. pose proof SZ as [_ NZ]. pose proof P as [LP [B _]].
    unfold label_errors. rewrite (proj1 Y'), (proj1 Y), !sumn_types, !rows_length.
    rewrite <- (sumn_permutes n p (fun t => sumn (part (type_rows n x) t) _) P). apply sumn_ext. intros t Ht.
    rewrite !rows_part by (try apply B; exact Ht). rewrite (renumbered_rows n p x x' t R Ht). apply sumn_ext. intros i Hi.
    pose proof Y as [_ Yr]. specialize (Yr (part p t) i (B t Ht)). rewrite rows_part in Yr by (apply B, Ht). specialize (Yr Hi).
    rewrite NY, NZ by assumption. set (a := nth _ y 0%Z) in *. set (b := nth _ z 0%Z).
    set (s := Z.of_nat (before (ty_states g) (part p t))) in *. set (s' := Z.of_nat (before (map (part (ty_states g)) p) t)).
    replace (a - s + s' =? b - s + s')%Z with (a =? b)%Z by (apply Bool.eq_iff_eq_true; rewrite !Z.eqb_eq; lia).
    destruct (a =? b)%Z; [reflexivity|]. pose proof (renumber_well_typed g p W P) as W'.
    replace (Z.to_nat (a - s + s')) with (before (ty_states (renumber p g)) t + Z.to_nat (a - s))%nat
      by (change (ty_states (renumber p g)) with (map (part (ty_states g)) p); unfold s, s' in *; lia).
    replace (Z.to_nat a) with (before (ty_states g) (part p t) + Z.to_nat (a - s))%nat by (unfold s in *; lia).
    rewrite (weights_nth g) by (try exact W; try apply B; try exact Ht; unfold s in *; lia).
    rewrite (weights_nth (renumber p g)).
    - unfold renumber. cbn [ty_weights]. rewrite (nth_map_in _ _ _ O) by (rewrite LP; exact Ht). reflexivity.
    - exact W'.
    - rewrite (n' g p P). exact Ht.
    - rewrite (states' g p P t Ht). unfold s in *. lia.
  Qed.
End Iso.

(** ** all instances; constraints *)
Lemma states_picked p states : permutes (length states) p -> pick p states = Ok (map (part states) p).
Proof. intro P. apply pick_ok. apply Forall_forall. intros a Ha. apply (permutes_in _ p a P Ha). Qed.
Lemma swap_all fuel p states lX lY : permutes (length states) p ->
  swap_node_types fuel p states lX lY [] =
  Some (let! l := mapM (fun q => swap_one p states (map (part states) p) (fst q) (snd q)) (combine lX lY) in Ok (map fst l, map snd l, None)).
Proof.
  intro P. unfold swap_node_types. rewrite states_picked by exact P. cbn [bind]. destruct (mapM _ _); reflexivity.
Qed.
Lemma swap_bad_entry fuel p states lX lY cs : Exists (fun i => length states <= i) p ->
  swap_node_types fuel p states lX lY cs = Some (Err IndexError).
Proof. intro E. unfold swap_node_types. rewrite (pick_err p states E). reflexivity. Qed.

Definition shaped (n : nat) (c : typed_constraint) : Prop :=
  let '(_, us, ss, ns) := c in length us = n /\ length ss = n /\ length ns = n.
Lemma shaped_swap n p c : permutes n p -> shaped n c -> exists c', swap_constraint p c = Ok c' /\ shaped n c'.
Proof.
  intros P. destruct c as [[[op us] ss] ns]. intros (L1 & L2 & L3). pose proof P as [LP _].
  assert (Q : forall A (l : list A) (d : A), length l = n -> pick p l = Ok (map (fun i => nth i l d) p)).
  { intros A l d L. apply pick_ok. apply Forall_forall. intros a Ha. rewrite L. apply (permutes_in n p a P Ha). }
  unfold swap_constraint. rewrite (Q _ us [] L1), (Q _ ss [] L2), (Q _ ns [] L3). cbn [bind]. eexists. split; [reflexivity|]. simpl. rewrite !map_length. auto.
Qed.
Lemma loop_forever n p : permutes n p -> forall fuel seen todo, todo <> [] -> Forall (shaped n) todo -> swap_loop fuel p seen todo = None.
Proof.
  intros P. induction fuel as [|fuel IH]; intros seen [|c r] NE F; try contradiction; [reflexivity|]. cbn [swap_loop].
  apply Forall_cons_iff in F. destruct F as [Fc Fr].
  destruct (shaped_swap n p c P Fc) as [c' [E S]]. rewrite E. apply IH; [destruct r; discriminate|]. apply Forall_app. split; [exact Fr|]. constructor; [exact S|constructor].
Qed.
Lemma constraints_forever n p : permutes n p -> forall fuel cs last, Forall (Forall (shaped n)) cs -> Exists (fun c => c <> []) cs ->
  swap_constraints fuel p last cs = None.
Proof.
  intros P fuel cs. induction cs as [|c cs IH]; intros last F E; [inversion E|]. cbn [swap_constraints].
  apply Forall_cons_iff in F. destruct F as [Fc Fr]. destruct c as [|c0 c].
  - assert (E' : Exists (fun c : list typed_constraint => c <> []) cs) by (apply Exists_cons in E; destruct E as [E|E]; [contradiction|exact E]).
    destruct fuel; cbn [swap_loop]; apply IH; assumption.
  - rewrite (loop_forever n p P) by (discriminate || assumption). reflexivity.
Qed.
Lemma constraints_empty p fuel cs : forall last, cs <> [] -> Forall (fun c => c = []) cs -> swap_constraints fuel p last cs = Some (Ok [[]]).
Proof.
  induction cs as [|c cs IH]; intros last NE F; [contradiction|]. apply Forall_cons_iff in F. destruct F as [-> F]. cbn [swap_constraints].
  replace (swap_loop fuel p [] []) with (Some (Ok (@nil typed_constraint))) by (destruct fuel; reflexivity).
  destruct cs as [|c' cs]; [reflexivity|]. apply IH; [discriminate|exact F].
Qed.
Lemma swap_forever fuel p states lX lY cs l : permutes (length states) p ->
  mapM (fun q => swap_one p states (map (part states) p) (fst q) (snd q)) (combine lX lY) = Ok l ->
  Forall (Forall (shaped (length states))) cs -> Exists (fun c => c <> []) cs ->
  swap_node_types fuel p states lX lY cs = None.
Proof.
  intros P E F X. unfold swap_node_types. rewrite states_picked by exact P. cbn [bind]. rewrite E.
  destruct cs as [|c cs]; [inversion X|]. rewrite (constraints_forever _ p P fuel (c :: cs) [] F X). reflexivity.
Qed.

Lemma swap_empty_lists fuel p states lX lY cs l : permutes (length states) p ->
  mapM (fun q => swap_one p states (map (part states) p) (fst q) (snd q)) (combine lX lY) = Ok l ->
  cs <> [] -> Forall (fun c => c = []) cs ->
  swap_node_types fuel p states lX lY cs = Some (Ok (map fst l, map snd l, Some [[]])).
Proof.
  intros P E N F. unfold swap_node_types. rewrite states_picked by exact P. cbn [bind]. rewrite E.
  destruct cs as [|c cs]; [contradiction|]. rewrite (constraints_empty p fuel (c :: cs) [] N F). reflexivity.
Qed.

Lemma swap_main g p x y : let n := length (ty_states g) in let g' := renumber p g in
  well_typed g -> involution n p -> typed_instance g x -> full_nodes n x -> typed_labelling (ty_states g) (type_rows n x) y ->
  exists x' y', swap_one p (ty_states g) (ty_states g') x y = Ok (x', y') /\
    renumbered n p x x' /\ same_states n p (ty_states g) x x' y y' /\
    well_typed g' /\ typed_instance g' x' /\ typed_labelling (ty_states g') (type_rows n x') y' /\
    (forall t i, (t < n)%nat -> (i < x_rows x (part p t))%nat ->
       typed_lab (ty_states g') (type_rows n x') y' t i = typed_lab (ty_states g) (type_rows n x) y (part p t) i) /\
    forall w, length w = ty_size g -> length (renumber_weights p g w) = ty_size g' /\
      ty_score g' x' (renumber_weights p g w) y' = ty_score g x w y.
Proof.
  intros n g' W I T F Y. pose proof (involution_permutes n p I) as P. pose proof T as (_ & T2 & T3 & _).
  destruct (swap_involution (ty_states g) p x y I F ltac:(fold n; fold n in T2; lia) T3 Y) as [x' [y' [E [R [F' S]]]]]. fold n in R, S.
  exists x', y'. split; [exact E|]. split; [exact R|]. split; [exact S|]. split; [apply renumber_well_typed; assumption|].
  split; [apply (renumber_instance g p P x x' T R)|].
  destruct (same_states_labelling n p (ty_states g) x x' y y' eq_refl P R Y S) as [Y' LB]. split; [exact Y'|]. split; [exact LB|].
  intros w LW. split; [apply weights_length; assumption|]. apply score_renumbered; assumption.
Qed.
Lemma swap_best g p x y x' y' w : let n := length (ty_states g) in
  well_typed g -> involution n p -> typed_instance g x -> full_nodes n x -> typed_labelling (ty_states g) (type_rows n x) y ->
  swap_one p (ty_states g) (ty_states (renumber p g)) x y = Ok (x', y') -> length w = ty_size g ->
  (best_labelling g x w y <-> best_labelling (renumber p g) x' (renumber_weights p g w) y').
Proof.
  intros n W I T F Y E LW. pose proof T as (_ & T2 & T3 & _).
  destruct (swap_involution (ty_states g) p x y I F ltac:(fold n; fold n in T2; lia) T3 Y) as [x1 [y1 [E1 [R [F' S]]]]]. fold n in R, S, F'.
  change (ty_states (renumber p g)) with (map (part (ty_states g)) p) in E. assert (x1 = x') by congruence. assert (y1 = y') by congruence. subst x1 y1.
  apply (best_back g p x x' W I T F R F' w y y' LW Y S).
Qed.
Lemma swap_errors g p x y z x1 y' x2 z' : let n := length (ty_states g) in
  well_typed g -> involution n p -> typed_instance g x -> full_nodes n x ->
  typed_labelling (ty_states g) (type_rows n x) y -> typed_labelling (ty_states g) (type_rows n x) z ->
  swap_one p (ty_states g) (ty_states (renumber p g)) x y = Ok (x1, y') ->
  swap_one p (ty_states g) (ty_states (renumber p g)) x z = Ok (x2, z') ->
  x1 = x2 /\ label_errors (renumber p g) y' z' = label_errors g y z.
Proof.
  intros n W I T F Y Z E1 E2. pose proof T as (_ & T2 & T3 & _).
  destruct (swap_involution (ty_states g) p x y I F ltac:(fold n; fold n in T2; lia) T3 Y) as [a [b [EA [RA [_ SA]]]]].
  destruct (swap_involution (ty_states g) p x z I F ltac:(fold n; fold n in T2; lia) T3 Z) as [c [d [EC [RC [_ SC]]]]]. fold n in RA, SA, RC, SC.
  change (ty_states (renumber p g)) with (map (part (ty_states g)) p) in E1, E2.
  assert (a = x1) by congruence. assert (b = y') by congruence. assert (c = x2) by congruence. assert (d = z') by congruence. subst a b c d.
  pose proof (renumbered_unique n p x x1 x2 RA RC) as ->. split; [reflexivity|].
  apply (errors_renumbered g p x x2 W I RA y z y' z' Y Z SA SC).
Qed.
