From Coq Require Import ZArith.
From Verif Require Import Spec.BinarySpec Spec.SolverSpec Spec.LabelSpec Proofs.EnergyProofs Proofs.MultiLabelProofs Proofs.UnstructuredProofs Proofs.LossProofs Proofs.OneSlackProofs2 Proofs.SubgradientRate6 Proofs.InstanceProofs Proofs.UnstructuredProofs2 Model.BatchInstances.

(** ** Hinge losses that are functions of the sample *)
Section Functional.
  Context {X Y : Type} (T : task X Y) (d : nat) (H : list Qc -> X -> Y -> Qc).
  Definition fun_value (C : Qc) (S : list (X * Y)) (w : list Qc) : Qc :=
    C * lsum (map (fun p => H w (fst p) (snd p)) S) + normsq w / (1 + 1).
  Definition fun_hinge (S : list (X * Y)) : Prop :=
    forall w p h, length w = d -> In p S -> (is_hinge T w (fst p) (snd p) h <-> h = H w (fst p) (snd p)).
  Lemma fun_hinges S w hs : fun_hinge S -> length w = d ->
    (hinges T w S hs <-> hs = map (fun p => H w (fst p) (snd p)) S).
  Proof.
    intros HF Hw. unfold hinges. revert hs. induction S as [|p S' IH]; intros hs.
    - split; [intro K; inversion K; reflexivity|intros ->; constructor].
    - assert (HF' : fun_hinge S') by (intros v q h Hv Iq; apply HF; [exact Hv|right; exact Iq]).
      split.
      + intro K. inversion K as [|? h ? hs' K1 K2]; subst. cbn [map]. f_equal.
        * apply (HF w p h Hw); [left; reflexivity|exact K1].
        * apply (IH HF'). exact K2.
      + intros ->. cbn [map]. constructor; [apply (HF w p _ Hw); [left; reflexivity|reflexivity]|]. apply (IH HF'). reflexivity.
  Qed.
  Lemma fun_near C S w e : fun_hinge S ->
    (near_minimal T d C S w e <-> length w = d /\ forall v, length v = d -> fun_value C S w <= fun_value C S v + e).
  Proof.
    intro HF. unfold near_minimal. split; intros [Hw K]; (split; [exact Hw|]).
    - destruct K as [hs [K1 K2]]. intros v Hv. apply (fun_hinges S w hs HF Hw) in K1. subst hs.
      exact (K2 v _ Hv (proj2 (fun_hinges S v _ HF Hv) eq_refl)).
    - eexists. split; [apply (fun_hinges S w _ HF Hw); reflexivity|]. intros v hv Hv Kv.
      apply (fun_hinges S v hv HF Hv) in Kv. subst hv. exact (K v Hv).
  Qed.
End Functional.

(** ** Blocks of weights *)
Lemma block_length F w l : length (block F w l) = F.
Proof. unfold block. apply tab1_length. Qed.
Lemma blocks_length F L ws : length (blocks F L ws) = (L * F)%nat.
Proof. unfold blocks. apply concat_tab2_length. Qed.
Lemma block_blocks F L ws l : (forall l, (l < L)%nat -> length (ws l) = F) -> (l < L)%nat -> block F (blocks F L ws) l = ws l.
Proof.
  intros HW Hl. unfold block, blocks. apply (nth_ext _ _ 0 0); rewrite tab1_length; [symmetry; apply HW; exact Hl|].
  intros j Hj. change (get1 (tab1 F (fun j0 => get1 (concat (tab2 L F (fun l0 j1 => get1 (ws l0) j1))) (l * F + j0))) j = get1 (ws l) j).
  rewrite get1_tab1 by exact Hj. rewrite get1_concat_tab2 by auto. reflexivity.
Qed.
Lemma dot_block F w l x : length x = F -> dot (block F w l) x = sumn F (fun j => get1 w (l * F + j) * get1 x j).
Proof.
  intro Hx. rewrite dot_get by (rewrite block_length; auto). rewrite block_length. apply sumn_ext. intros j Hj. unfold block. now rewrite get1_tab1 by exact Hj.
Qed.
Lemma normsq_blocks F L w : length w = (L * F)%nat -> normsq w = sumn L (fun l => normsq (block F w l)).
Proof.
  intro Hw. unfold normsq. rewrite dot_get by reflexivity. rewrite Hw, sumn_mul. apply sumn_ext. intros l Hl.
  rewrite (dot_block F w l _ (block_length F w l)). apply sumn_ext. intros j Hj. unfold block. now rewrite get1_tab1 by exact Hj.
Qed.

(** ** Binary samples *)
Lemma hinge_two a m h : a = 0 -> (h = a \/ h = m) -> a <= h -> m <= h -> h = Qcmax 0 m.
Proof. intros -> [->| ->] H1 H2; unfold Qcmax; destruct (Qcleb_spec 0 m); qclra. Qed.
Lemma ofZ_opp1 : ofZ (-1) = - (1).
Proof. apply Qc_is_canon. reflexivity. Qed.
Lemma ofZ_1 : ofZ 1 = 1.
Proof. apply Qc_is_canon. reflexivity. Qed.

Lemma bc_margin w x y y' : (y = 1%Z \/ y = (-1)%Z) -> (y' = 1%Z \/ y' = (-1)%Z) ->
  margin bc_task w x y y' = if (y =? y')%Z then 0 else 1 - ofZ y * dot w x.
Proof.
  intros [->| ->] [->| ->]; unfold margin; cbn [bc_task t_loss t_feat Z.eqb Pos.eqb]; rewrite ?dot_vscale_r, ?ofZ_opp1, ?ofZ_1; field; discriminate.
Qed.
Lemma bc_hinge F w x y h : binary_sample F (x, y) -> (is_hinge bc_task w x y h <-> h = binary_hinge w x y).
Proof.
  intros [_ Hy]. cbn [fst snd] in Hy. unfold is_hinge, binary_hinge. cbn [bc_task t_label].
  assert (Hn : (- y = 1 \/ - y = -1)%Z) by (destruct Hy as [->| ->]; auto).
  assert (EN : (y =? - y)%Z = false) by (destruct Hy as [->| ->]; reflexivity).
  assert (M1 := bc_margin w x y y Hy Hy). rewrite Z.eqb_refl in M1.
  assert (M2 := bc_margin w x y (- y) Hy Hn). rewrite EN in M2.
  split.
  - intros [[y' [Hy' E]] K]. assert (K1 := K y Hy). assert (K2 := K (- y)%Z Hn). change (t_label bc_task x y') in Hy'. rewrite M1 in K1. rewrite M2 in K2.
    rewrite (bc_margin w x y y' Hy Hy') in E. apply (hinge_two 0); auto. destruct (y =? y')%Z; auto.
  - intros ->. set (m := 1 - ofZ y * dot w x) in *. split.
    + unfold Qcmax. destruct (Qcleb_spec 0 m) as [L|L]; [exists (- y)%Z|exists y]; auto.
    + intros y' Hy'. change (t_label bc_task x y') in Hy'. rewrite (bc_margin w x y y' Hy Hy'). fold m. destruct (y =? y')%Z; unfold Qcmax; destruct (Qcleb_spec 0 m); qclra.
Qed.
Lemma bc_fun F S : Forall (binary_sample F) S -> fun_hinge bc_task F binary_hinge S.
Proof.
  intros HS w p h _ Ip. rewrite Forall_forall in HS. apply (bc_hinge F). destruct p as [x y]. exact (HS _ Ip).
Qed.

(** ** Two classes *)
Definition mc_hinge (F : nat) (w x : list Qc) (s : nat) : Qc := binary_hinge (vsub (block F w 1) (block F w 0)) x (label_of s).
Section TwoClasses.
Variable c : nat -> Qc.
Hypothesis Hc : c 0%nat = 1 /\ c 1%nat = 1.
Lemma class_score_block F w x s : length x = F -> class_score F w x s = dot (block F w s) x.
Proof. intro Hx. rewrite dot_block by exact Hx. reflexivity. Qed.
Lemma mc_margin F w x s s' : length x = F -> length w = (2 * F)%nat -> (s < 2)%nat -> (s' < 2)%nat ->
  margin (mc_task 2 F c) w x s s' = if (s =? s')%nat then 0 else 1 - ofZ (label_of s) * dot (vsub (block F w 1) (block F w 0)) x.
Proof.
  intros Hx Hw Hs Hs'. unfold margin. cbn [mc_task t_loss t_feat]. rewrite !dot_class_feature, !class_score_block by auto.
  rewrite dot_vsub_l by (rewrite !block_length; reflexivity).
  destruct s as [|[|]]; [| |lia]; (destruct s' as [|[|]]; [| |lia]); cbn [Nat.eqb label_of]; rewrite ?ofZ_opp1, ?ofZ_1, ?(proj1 Hc), ?(proj2 Hc); ring.
Qed.
Lemma mc2_hinge F w x s h : length x = F -> length w = (2 * F)%nat -> (s < 2)%nat ->
  (is_hinge (mc_task 2 F c) w x s h <-> h = mc_hinge F w x s).
Proof.
  intros Hx Hw Hs. unfold is_hinge, mc_hinge, binary_hinge. cbn [mc_task t_label].
  assert (Hn : (1 - s < 2)%nat) by lia.
  assert (EN : (s =? 1 - s)%nat = false) by (apply Nat.eqb_neq; lia).
  assert (M1 := mc_margin F w x s s Hx Hw Hs Hs). rewrite Nat.eqb_refl in M1.
  assert (M2 := mc_margin F w x s (1 - s) Hx Hw Hs Hn). rewrite EN in M2.
  set (m := 1 - ofZ (label_of s) * dot (vsub (block F w 1) (block F w 0)) x) in *.
  split.
  - intros [[y' [Hy' E]] K]. assert (K1 := K s Hs). assert (K2 := K (1 - s)%nat Hn). fold (mc_task 2 F c) in *. rewrite M1 in K1. rewrite M2 in K2.
    rewrite (mc_margin F w x s y' Hx Hw Hs Hy') in E. fold m in E. apply (hinge_two 0); auto. destruct (s =? y')%nat; auto.
  - intros ->. split.
    + unfold Qcmax. destruct (Qcleb_spec 0 m) as [L|L]; [exists (1 - s)%nat|exists s]; auto.
    + intros y' Hy'. fold (mc_task 2 F c). rewrite (mc_margin F w x s y' Hx Hw Hs Hy'). fold m. destruct (s =? y')%nat; unfold Qcmax; destruct (Qcleb_spec 0 m); qclra.
Qed.
Lemma class_of_lt y : (class_of y < 2)%nat.
Proof. unfold class_of. destruct (y =? 1)%Z; lia. Qed.
Lemma label_class y : (y = 1%Z \/ y = (-1)%Z) -> label_of (class_of y) = y.
Proof. intros [->| ->]; reflexivity. Qed.
Lemma mc_fun F S : Forall (binary_sample F) S -> fun_hinge (mc_task 2 F c) (2 * F) (mc_hinge F) (two_classes S).
Proof.
  intros HS w p h Hw Ip. unfold two_classes in Ip. apply in_map_iff in Ip. destruct Ip as [[x y] [<- Iq]]. cbn [fst snd].
  rewrite Forall_forall in HS. destruct (HS _ Iq) as [Hx _]. apply mc2_hinge; auto. apply class_of_lt.
Qed.
Lemma mc_value F C S w : Forall (binary_sample F) S -> length w = (2 * F)%nat ->
  fun_value (mc_hinge F) C (two_classes S) w =
  fun_value binary_hinge (C + C) S (vsub (block F w 1) (block F w 0)) / (1 + 1) + normsq (vadd (block F w 0) (block F w 1)) / ofN 4.
Proof.
  intros HS Hw. unfold fun_value, two_classes. rewrite map_map. cbn [fst snd].
  assert (E : map (fun p : list Qc * Z => mc_hinge F w (fst p) (class_of (snd p))) S =
              map (fun p => binary_hinge (vsub (block F w 1) (block F w 0)) (fst p) (snd p)) S).
  { apply map_ext_in. intros [x y] I. unfold mc_hinge. cbn [fst snd]. rewrite Forall_forall in HS. destruct (HS _ I) as [_ Hy]. now rewrite label_class. }
  rewrite E. clear E. rewrite (normsq_blocks F 2 w) by exact Hw. rewrite !sumn_S, sumn_O. unfold normsq.
  rewrite !dot_vsub_l, !dot_vsub_r, !dot_vadd_l, !dot_vadd_r by (rewrite !block_length; reflexivity).
  rewrite (dot_comm (block F w 1) (block F w 0)). change (ofN 4) with ((1 + 1) * (1 + 1)). field. split; discriminate.
Qed.

Lemma opposite_diff F u : length u = F -> vsub (block F (opposite F u) 1) (block F (opposite F u) 0) = u /\ normsq (vadd (block F (opposite F u) 0) (block F (opposite F u) 1)) = 0.
Proof.
  intro Hu. unfold opposite. assert (HL : forall l, (l < 2)%nat -> length (vscale (ofZ (label_of l) / (1 + 1)) u) = F) by (intros; unfold vscale; now rewrite map_length).
  rewrite !(block_blocks F 2 _ _ HL) by lia. cbn [label_of Nat.eqb]. rewrite ofZ_opp1, ofZ_1. split.
  - clear. induction u as [|a u IH]; [reflexivity|]. cbn [vscale map vsub zipw]. f_equal; [field; discriminate|exact IH].
  - unfold normsq. rewrite dot_vadd_l, !dot_vadd_r by (unfold vscale; now rewrite !map_length). rewrite !dot_vscale_l, !dot_vscale_r. field. discriminate.
Qed.
Lemma opposite_length F u : length (opposite F u) = (2 * F)%nat.
Proof. apply blocks_length. Qed.
Lemma half_le a b : a / (1 + 1) <= b / (1 + 1) -> a <= b.
Proof. intro H. assert (E : forall q : Qc, q = q / (1 + 1) + q / (1 + 1)) by (intro q; field; discriminate). rewrite (E a), (E b). qclra. Qed.
Lemma four_inv : ofN 4 = (1 + 1) * (1 + 1).
Proof. apply Qc_is_canon. reflexivity. Qed.
Lemma quarter_nonneg a : 0 <= a -> 0 <= a / ofN 4.
Proof.
  intro H. rewrite four_inv. assert (E : a = a / ((1 + 1) * (1 + 1)) + a / ((1 + 1) * (1 + 1)) + a / ((1 + 1) * (1 + 1)) + a / ((1 + 1) * (1 + 1))) by (field; discriminate).
  set (b := a / _) in *. clearbody b. subst a. qclra.
Qed.

Lemma diff_length F w i j : length (vsub (block F w i) (block F w j)) = F.
Proof. unfold vsub. rewrite zipw_length; rewrite !block_length; reflexivity. Qed.
Lemma two_classes_to_binary F C S w e : Forall (binary_sample F) S ->
  near_minimal (mc_task 2 F c) (2 * F) C (two_classes S) w e ->
  near_minimal bc_task F (C + C) S (vsub (block F w 1) (block F w 0)) (e + e).
Proof.
  intros HS K. apply (fun_near _ _ _ _ _ _ _ (mc_fun F S HS)) in K. apply (fun_near _ _ _ _ _ _ _ (bc_fun F S HS)).
  destruct K as [Hw K]. split; [apply diff_length|]. intros v Hv.
  assert (Q := K (opposite F v) (opposite_length F v)). rewrite !mc_value in Q by (auto using opposite_length).
  destruct (opposite_diff F v Hv) as [E1 E2]. rewrite E1, E2 in Q.
  assert (N := quarter_nonneg _ (normsq_nonneg (vadd (block F w 0) (block F w 1)))).
  apply half_le. set (n := _ / ofN 4) in *. set (a := fun_value _ _ _ _) in Q. fold a. set (b := fun_value binary_hinge (C + C) S v) in *.
  assert (E : (b + (e + e)) / (1 + 1) = b / (1 + 1) + e) by (field; discriminate). rewrite E. change (0 / ofN 4) with (0 * / ofN 4) in Q.
  assert (Z0 : 0 * / ofN 4 = 0) by ring. rewrite Z0 in Q. clear - Q N. clearbody a b n. qclra.
Qed.
Lemma two_classes_balanced F C S w e : Forall (binary_sample F) S ->
  near_minimal (mc_task 2 F c) (2 * F) C (two_classes S) w e ->
  normsq (vadd (block F w 0) (block F w 1)) <= ofN 4 * e.
Proof.
  intros HS K. apply (fun_near _ _ _ _ _ _ _ (mc_fun F S HS)) in K. destruct K as [Hw K].
  set (u := vsub (block F w 1) (block F w 0)). assert (Hu : length u = F) by (apply diff_length).
  assert (Q := K (opposite F u) (opposite_length F u)). rewrite !mc_value in Q by (auto using opposite_length).
  destruct (opposite_diff F u Hu) as [E1 E2]. rewrite E1, E2 in Q. fold u in Q. set (a := fun_value _ _ _ _) in Q.
  set (N := normsq _) in *. assert (E : N = ofN 4 * (N / ofN 4)) by (rewrite four_inv; field; discriminate). rewrite E.
  change (0 / ofN 4) with (0 * / ofN 4) in Q. assert (Z0 : 0 * / ofN 4 = 0) by ring. rewrite Z0 in Q.
  set (q := N / ofN 4) in *. rewrite four_inv. clearbody q. clear - Q. clearbody a.
  replace ((1 + 1) * (1 + 1) * q) with (q + q + q + q) by ring. replace ((1 + 1) * (1 + 1) * e) with (e + e + e + e) by ring. qclra.
Qed.
Lemma halves a b n e : a <= b + e -> 0 <= n -> a / (1 + 1) + 0 / ofN 4 <= b / (1 + 1) + n + e / (1 + 1).
Proof.
  intros Q N. apply half_le. apply half_le.
  assert (E0 : (a / (1 + 1) + 0 / ofN 4) / (1 + 1) / (1 + 1) = a * / ((1 + 1) * (1 + 1) * (1 + 1))) by (rewrite four_inv; field; repeat split; discriminate).
  assert (E1 : (b / (1 + 1) + n + e / (1 + 1)) / (1 + 1) / (1 + 1) = (b + e + (n + n)) * / ((1 + 1) * (1 + 1) * (1 + 1))) by (field; repeat split; discriminate).
  rewrite E0, E1. apply Qcmult_le_compat_r; [qclra|vm_compute; discriminate].
Qed.
Lemma binary_to_two_classes F C S u e : Forall (binary_sample F) S ->
  near_minimal bc_task F (C + C) S u e ->
  near_minimal (mc_task 2 F c) (2 * F) C (two_classes S) (opposite F u) (e / (1 + 1)).
Proof.
  intros HS K. apply (fun_near _ _ _ _ _ _ _ (bc_fun F S HS)) in K. apply (fun_near _ _ _ _ _ _ _ (mc_fun F S HS)).
  destruct K as [Hu K]. split; [apply opposite_length|]. intros v Hv. rewrite !mc_value by (auto using opposite_length).
  destruct (opposite_diff F u Hu) as [E1 E2]. rewrite E1, E2.
  assert (Hd : length (vsub (block F v 1) (block F v 0)) = F) by (apply diff_length).
  assert (Q := K _ Hd). assert (N := quarter_nonneg _ (normsq_nonneg (vadd (block F v 0) (block F v 1)))).
  exact (halves _ _ _ _ Q N).
Qed.

End TwoClasses.

(** ** Labels without edges *)
Definition ml_hinge (F L : nat) (w x : list Qc) (y : list nat) : Qc :=
  sumn L (fun l => binary_hinge (vscale (1 + 1) (block F w l)) x (label_of (lab y l))).
Lemma labelling_of n k (f : nat -> nat) : (forall i, (i < n)%nat -> (f i < k)%nat) ->
  Energy.labelling n k (map f (seq 0 n)) /\ forall i, (i < n)%nat -> lab (map f (seq 0 n)) i = f i.
Proof.
  intro H. split; [split; [now rewrite map_length, seq_length|]|].
  - apply Forall_forall. intros s I. apply in_map_iff in I. destruct I as [i [<- I]]. apply in_seq in I. apply H. lia.
  - intros i Hi. unfold lab. apply (nth_map_seq f n i 0%nat). exact Hi.
Qed.
Section Labels.
  Variables (F L : nat).
  Let m := ML L F [].
  Lemma ml_dot x y w : length x = F -> length w = (L * F)%nat -> Energy.labelling L 2 y ->
    dot w (t_feat (ml_task m) x y) = sumn L (fun l => ofZ (label_of (lab y l)) * dot (block F w l) x).
  Proof.
    intros Hx Hw Hy. cbn [ml_task t_feat].
    assert (Hs : length w = ml_size m) by (unfold ml_size; cbn; lia).
    destruct (ml_joint_ok m x y w Hx Hs Hy (Forall_nil _)) as [psi [E1 [_ E3]]]. rewrite E1. cbn [ok_or]. rewrite E3. unfold score. cbn [ml_edges m length].
    rewrite sumn_O, Qcplus_0_r. apply sumn_ext. intros l Hl. unfold label_unary. cbn [ml_features m]. rewrite (dot_block F w l x Hx).
    assert (B := labelling_lt _ _ y l Hy Hl). unfold label_of. destruct (lab y l =? 0)%nat; rewrite ?ofZ_opp1, ?ofZ_1; ring.
  Qed.
  Lemma ml_margin x y y' w : length x = F -> length w = (L * F)%nat -> Energy.labelling L 2 y -> Energy.labelling L 2 y' ->
    margin (ml_task m) w x y y' = sumn L (fun l => if (lab y l =? lab y' l)%nat then 0 else 1 - ofZ (label_of (lab y l)) * dot (vscale (1 + 1) (block F w l)) x).
  Proof.
    intros Hx Hw Hy Hy'. unfold margin. rewrite !ml_dot by assumption. cbn [ml_task t_loss]. unfold hamming. rewrite (proj1 Hy).
    rewrite <- !sumn_minus. apply sumn_ext. intros l Hl. rewrite dot_vscale_l.
    assert (B := labelling_lt _ _ y l Hy Hl). assert (B' := labelling_lt _ _ y' l Hy' Hl).
    destruct (Nat.eqb_spec (lab y l) (lab y' l)) as [->|D]; [ring|].
    destruct (lab y l) as [|[|]]; [| |lia]; (destruct (lab y' l) as [|[|]]; [| |lia]); try (exfalso; apply D; reflexivity); cbn [label_of Nat.eqb]; rewrite ?ofZ_opp1, ?ofZ_1; ring.
  Qed.
  Lemma ml_hinge_ok w x y h : length x = F -> length w = (L * F)%nat -> Energy.labelling L 2 y ->
    (is_hinge (ml_task m) w x y h <-> h = ml_hinge F L w x y).
  Proof.
    intros Hx Hw Hy. unfold is_hinge, ml_hinge, binary_hinge.
    change (t_label (ml_task m) x) with (Energy.labelling L 2).
    set (v := fun l => 1 - ofZ (label_of (lab y l)) * dot (vscale (1 + 1) (block F w l)) x).
    assert (U : forall y', Energy.labelling L 2 y' -> margin (ml_task m) w x y y' <= sumn L (fun l => Qcmax 0 (v l))).
    { intros y' Hy'. rewrite ml_margin by assumption. apply sumn_le. intros l Hl. fold (v l). unfold Qcmax. destruct (Qcleb_spec 0 (v l)); destruct (lab y l =? lab y' l)%nat; qclra. }
    destruct (labelling_of L 2 (fun l => if Qcleb 0 (v l) then (1 - lab y l)%nat else lab y l)) as [K1 K2].
    { intros l Hl. assert (B := labelling_lt _ _ y l Hy Hl). destruct (Qcleb 0 (v l)); lia. }
    set (yb := map _ (seq 0 L)) in *.
    assert (E : margin (ml_task m) w x y yb = sumn L (fun l => Qcmax 0 (v l))).
    { rewrite ml_margin by assumption. apply sumn_ext. intros l Hl. rewrite (K2 l Hl). fold (v l). assert (B := labelling_lt _ _ y l Hy Hl). unfold Qcmax.
      destruct (Qcleb 0 (v l)); [|now rewrite Nat.eqb_refl]. destruct (Nat.eqb_spec (lab y l) (1 - lab y l)) as [G|G]; [lia|reflexivity]. }
    split.
    - intros [[y' [Hy' E']] K]. assert (A := K yb K1). rewrite E in A. assert (B := U y' Hy'). rewrite E' in B. apply Qcle_antisym; assumption.
    - intros ->. split; [exists yb; auto|exact U].
  Qed.
  Lemma ml_fun S : Forall (multi_sample F L) S -> fun_hinge (ml_task m) (ml_size m) (ml_hinge F L) S.
  Proof.
    intros HS w [x y] h Hw Ip. cbn [fst snd]. rewrite Forall_forall in HS. destruct (HS _ Ip) as [Hx Hy].
    apply ml_hinge_ok; auto. rewrite Hw. unfold ml_size. cbn. lia.
  Qed.
  Definition label_value (C : Qc) (S : list (list Qc * list nat)) (l : nat) (u : list Qc) : Qc := fun_value binary_hinge (ofN 4 * C) (one_label l S) u.
  Lemma ml_value C S w : length w = (L * F)%nat ->
    fun_value (ml_hinge F L) C S w = sumn L (fun l => label_value C S l (vscale (1 + 1) (block F w l)) / ofN 4).
  Proof.
    intro Hw. unfold fun_value, label_value, one_label, ml_hinge.
    rewrite (lsum_swap S L (fun p l => binary_hinge (vscale (1 + 1) (block F w l)) (fst p) (label_of (lab (snd p) l)))).
    rewrite (normsq_blocks F L w Hw). unfold Qcdiv at 1. rewrite <- sumn_mult_l, <- sumn_mult_r, <- sumn_plus. apply sumn_ext. intros l Hl.
    unfold fun_value. rewrite map_map. cbn [fst snd]. unfold normsq. rewrite dot_vscale_l, dot_vscale_r, four_inv. field. repeat split; discriminate.
  Qed.
  Lemma twice_half u : vscale (1 + 1) (vscale (/ (1 + 1)) u) = u.
  Proof. induction u as [|a u IH]; [reflexivity|]. cbn [vscale map]. f_equal; [field; discriminate|exact IH]. Qed.
  Lemma quarter_le a b : a / ofN 4 <= b / ofN 4 -> a <= b.
  Proof.
    intro H. rewrite four_inv in H. assert (E : forall q, q = q / ((1 + 1) * (1 + 1)) + q / ((1 + 1) * (1 + 1)) + q / ((1 + 1) * (1 + 1)) + q / ((1 + 1) * (1 + 1))) by (intro; field; discriminate).
    rewrite (E a), (E b). qclra.
  Qed.
  Lemma le_quarter a b : a <= b -> a / ofN 4 <= b / ofN 4.
  Proof. intro H. unfold Qcdiv. apply Qcmult_le_compat_r; [exact H|vm_compute; discriminate]. Qed.
  Lemma quarter_plus b e : (b + ofN 4 * e) / ofN 4 = b / ofN 4 + e.
  Proof. rewrite four_inv. field. discriminate. Qed.
  Lemma labels_near C S w e l : Forall (multi_sample F L) S -> near_minimal (ml_task m) (ml_size m) C S w e -> (l < L)%nat ->
    near_minimal bc_task F (ofN 4 * C) (one_label l S) (vscale (1 + 1) (block F w l)) (ofN 4 * e).
  Proof.
    intros HS K Hl. assert (SZ : ml_size m = (L * F)%nat) by (unfold ml_size; cbn; lia).
    apply (fun_near _ _ _ _ _ _ _ (ml_fun S HS)) in K. destruct K as [Hw K]. rewrite SZ in Hw.
    assert (HS' : Forall (binary_sample F) (one_label l S)).
    { apply Forall_forall. intros p I. apply in_map_iff in I. destruct I as [q [<- I]]. rewrite Forall_forall in HS. destruct (HS q I) as [Hx Hy].
      split; [exact Hx|]. cbn [snd]. unfold label_of. destruct (_ =? 0)%nat; auto. }
    apply (fun_near _ _ _ _ _ _ _ (bc_fun F _ HS')). split; [now rewrite vscale_length, block_length|]. intros v Hv.
    set (ws := fun k => if (k =? l)%nat then vscale (/ (1 + 1)) v else block F w k).
    assert (HL : forall k, (k < L)%nat -> length (ws k) = F) by (intros k _; unfold ws; destruct (k =? l)%nat; [now rewrite vscale_length|apply block_length]).
    assert (Q := K (blocks F L ws)). rewrite SZ in Q. specialize (Q (blocks_length F L ws)). rewrite !ml_value in Q by (auto using blocks_length).
    apply quarter_le. rewrite quarter_plus. fold (label_value C S l (vscale (1 + 1) (block F w l))). fold (label_value C S l v).
    set (f := fun k => label_value C S k (vscale (1 + 1) (block F w k)) / ofN 4) in *.
    set (g := fun k => label_value C S k (vscale (1 + 1) (block F (blocks F L ws) k)) / ofN 4) in *.
    assert (D : sumn L f - sumn L g = f l - g l).
    { rewrite <- sumn_minus. rewrite <- (sumn_pick L l (fun k => f k - g k) Hl). apply sumn_ext. intros k Hk.
      destruct (Nat.eqb_spec k l) as [->|N]; cbn [ind]; [ring|]. unfold f, g. rewrite (block_blocks F L ws k HL Hk). unfold ws at 1. apply Nat.eqb_neq in N. rewrite N. ring. }
    assert (G : g l = label_value C S l v / ofN 4).
    { unfold g. rewrite (block_blocks F L ws l HL Hl). unfold ws. rewrite Nat.eqb_refl, twice_half. reflexivity. }
    rewrite <- G. fold (f l). clear - Q D. clearbody f g. qclra.
  Qed.
  Lemma near_labels C S w e : Forall (multi_sample F L) S -> length w = (L * F)%nat ->
    (forall l, (l < L)%nat -> near_minimal bc_task F (ofN 4 * C) (one_label l S) (vscale (1 + 1) (block F w l)) (ofN 4 * e l)) ->
    near_minimal (ml_task m) (ml_size m) C S w (sumn L e).
  Proof.
    intros HS Hw K. assert (SZ : ml_size m = (L * F)%nat) by (unfold ml_size; cbn; lia).
    apply (fun_near _ _ _ _ _ _ _ (ml_fun S HS)). split; [congruence|]. intros v Hv. rewrite SZ in Hv. rewrite !ml_value by assumption. rewrite <- sumn_plus.
    apply sumn_le. intros l Hl.
    assert (HS' : Forall (binary_sample F) (one_label l S)).
    { apply Forall_forall. intros p I. apply in_map_iff in I. destruct I as [q [<- I]]. rewrite Forall_forall in HS. destruct (HS q I) as [Hx Hy].
      split; [exact Hx|]. cbn [snd]. unfold label_of. destruct (_ =? 0)%nat; auto. }
    specialize (K l Hl). apply (fun_near _ _ _ _ _ _ _ (bc_fun F _ HS')) in K. destruct K as [_ K].
    rewrite <- quarter_plus. apply le_quarter. apply K. now rewrite vscale_length, block_length.
  Qed.

  (** *** predictions *)
  Lemma ml_predicts solve x w : exact_on_tables solve L [] -> length x = F -> length w = (L * F)%nat ->
    exists y, ml_inference solve m x w = Ok y /\ Energy.labelling L 2 y /\
      forall l, (l < L)%nat -> (0 < dot (block F w l) x -> lab y l = 1%nat) /\ (dot (block F w l) x < 0 -> lab y l = 0%nat).
  Proof.
    intros HS Hx Hw. assert (Hw' : length w = ml_size m) by (unfold ml_size; cbn; lia).
    destruct (ml_inference_exact solve m x w HS (Forall_nil _) Hx Hw') as [y [psi [E1 [E2 [E3 E4]]]]].
    exists y. split; [exact E1|]. split; [exact E2|]. intros l Hl.
    assert (G : forall s, (s < 2)%nat -> ofZ (label_of s) * dot (block F w l) x <= ofZ (label_of (lab y l)) * dot (block F w l) x).
    { intros s Hs. destruct (labelling_of L 2 (fun k => if (k =? l)%nat then s else lab y k)) as [K1 K2].
      { intros k Hk. destruct (k =? l)%nat; [exact Hs|exact (labelling_lt _ _ y k E2 Hk)]. }
      set (y' := map _ (seq 0 L)) in *. destruct (ml_joint_ok m x y' w Hx Hw' K1 (Forall_nil _)) as [psi' [J1 _]].
      assert (A := E4 y' psi' K1 J1). assert (D1 := ml_dot x y w Hx Hw E2). assert (D2 := ml_dot x y' w Hx Hw K1).
      cbn [ml_task t_feat] in D1, D2. rewrite E3 in D1. rewrite J1 in D2. cbn [ok_or] in D1, D2. rewrite D1, D2 in A.
      set (f := fun k => ofZ (label_of (lab y' k)) * dot (block F w k) x) in A. set (g := fun k => ofZ (label_of (lab y k)) * dot (block F w k) x) in A.
      assert (D : sumn L f - sumn L g = f l - g l).
      { rewrite <- sumn_minus. rewrite <- (sumn_pick L l (fun k => f k - g k) Hl). apply sumn_ext. intros k Hk.
        destruct (Nat.eqb_spec k l) as [->|N]; cbn [ind]; [ring|]. unfold f, g. rewrite (K2 k Hk). apply Nat.eqb_neq in N. rewrite N. ring. }
      assert (Fl : f l = ofZ (label_of s) * dot (block F w l) x) by (unfold f; now rewrite (K2 l Hl), Nat.eqb_refl).
      fold (g l). rewrite <- Fl. clear - A D. clearbody f g. qclra. }
    assert (B := labelling_lt _ _ y l E2 Hl). assert (G0 := G 0%nat ltac:(lia)). assert (G1 := G 1%nat ltac:(lia)).
    set (q := dot (block F w l) x) in *. clearbody q. assert (MQ : - (1) * q = - q) by ring.
    destruct (lab y l) as [|[|]]; [| |lia]; cbn [label_of Nat.eqb] in *; rewrite ?ofZ_opp1, ?ofZ_1 in *; rewrite ?MQ, ?Qcmult_1_l in *; split; intro Hq; try reflexivity; exfalso; clear - G0 G1 Hq; qclra.
  Qed.
End Labels.

(** ** Two classes and binary labels: predictions and distances *)
Lemma two_class_predicts m F x w : mc_states m = 2%nat -> mc_features m = F -> length x = F -> length w = (2 * F)%nat ->
  exists s y, mc_inference m x w = Ok s /\ bc_inference x (vsub (block F w 1) (block F w 0)) = Ok y /\
    ((dot (block F w 0) x <> dot (block F w 1) x /\ s = class_of y /\ y = label_of s) \/
     (dot (block F w 0) x = dot (block F w 1) x /\ s = 0%nat /\ y = 1%Z)).
Proof.
  intros Hk HF Hx Hw. destruct (mc_inference_exact m x w) as [s [E [_ [A1 [A2 A3]]]]]; [lia|unfold mc_size; rewrite Hk, HF; exact Hw|congruence|].
  rewrite Hk in *. rewrite HF in *. exists s. unfold bc_inference, np_dot. rewrite diff_length, Hx, Nat.eqb_refl. cbn [bind]. eexists. split; [exact E|]. split; [reflexivity|].
  rewrite (dot_comm x), dot_vsub_l by (rewrite !block_length; reflexivity). unfold bc_decide.
  assert (B0 := A2 0%nat ltac:(lia)). assert (B1 := A2 1%nat ltac:(lia)). rewrite !class_score_block in B0, B1 by exact Hx.
  set (p := dot (block F w 0) x) in *. set (q := dot (block F w 1) x) in *.
  destruct (Qceqb p q) eqn:EQ.
  - right. apply Qceqb_eq in EQ. split; [exact EQ|]. split.
    + destruct s as [|[|]]; [reflexivity| |lia]. exfalso. assert (B := A3 0%nat ltac:(lia)). rewrite !class_score_block in B by exact Hx. fold p q in B. rewrite EQ in B. exact (Qclt_not_eq _ _ B eq_refl).
    + destruct (Qcleb_spec 0 (q - p)) as [L|L]; [reflexivity|]. exfalso. clear - EQ L. rewrite EQ in L. qclra.
  - left. apply Qceqb_neq in EQ. split; [exact EQ|].
    destruct s as [|[|]]; [| |lia].
    + fold p in B1. fold q in B1. destruct (Qcleb_spec 0 (q - p)) as [L|L]; [|split; reflexivity]. exfalso. apply EQ. apply Qcle_antisym; clear - B1 L; qclra.
    + fold p in B0. fold q in B0. destruct (Qcleb_spec 0 (q - p)) as [L|L]; [split; reflexivity|]. exfalso. clear - B0 L. qclra.
Qed.
Lemma mc2_oracle F S : Forall (binary_sample F) S -> oracle_exact (mc_smodel (MC 2 F [1; 1] true false)) (mc_task 2 F (get1 [1; 1])) (2 * F) (two_classes S).
Proof.
  intros HS p Ip. apply in_map_iff in Ip. destruct Ip as [[x y] [<- I]]. rewrite Forall_forall in HS. destruct (HS _ I) as [Hx _]. cbn [fst snd] in *.
  assert (Hs := class_of_lt y). set (m := MC 2 F [1; 1] true false).
  split; [apply (mc_implements m); auto|]. intros w Hw. apply (mc_exact_laug m); auto.
Qed.
Lemma two_class_close F C S w u e g : 0 <= C -> Forall (binary_sample F) S ->
  near_minimal (mc_task 2 F (get1 [1; 1])) (2 * F) C (two_classes S) w e -> near_minimal bc_task F (C + C) S u g ->
  normsq (vsub w (opposite F u)) <= ofN 4 * (e + g / (1 + 1)).
Proof.
  intros HC HS Hw Hu. apply (near_close _ (2 * F) (mc_smodel (MC 2 F [1; 1] true false)) C (two_classes S) w (opposite F u) e (g / (1 + 1)) HC (mc2_oracle F S HS) Hw).
  apply binary_to_two_classes; auto.
Qed.

(** ** A sample with one feature *)
Definition ex44_u : list Qc := [Q2Qc (1 # 4)].
Lemma ex44_min (y : Z) : (y = 1%Z \/ y = (-1)%Z) -> near_minimal bc_task 1 (Q2Qc (1 # 4)) [([1], y)] (vscale (ofZ y) ex44_u) 0.
Proof.
  intro Hy. assert (HS : Forall (binary_sample 1) [([1], y)]) by (constructor; [split; [reflexivity|exact Hy]|constructor]).
  apply (fun_near _ _ _ _ _ _ _ (bc_fun 1 _ HS)). split; [reflexivity|]. intros [|v [|]] Hv; try discriminate Hv.
  unfold fun_value, binary_hinge, normsq. cbn [map fst snd lsum fold_right]. unfold dot, vscale, ex44_u. cbn [zipw map fold_right lsum].
  assert (E : Qcmax 0 (1 - ofZ y * (ofZ y * Q2Qc (1 # 4) * 1 + 0)) = Q2Qc (3 # 4)) by (destruct Hy as [->| ->]; apply Qc_is_canon; vm_compute; reflexivity).
  rewrite E. clear E.
  replace (Q2Qc (3 # 4)) with (/ (1 + 1) + / ((1 + 1) * (1 + 1))) by (apply Qc_is_canon; vm_compute; reflexivity).
  replace (Q2Qc (1 # 4)) with (/ ((1 + 1) * (1 + 1))) by (apply Qc_is_canon; vm_compute; reflexivity).
  set (q := / ((1 + 1) * (1 + 1))).
  assert (M : 0 <= Qcmax 0 (1 - ofZ y * (v * 1 + 0)) - (1 - ofZ y * (v * 1 + 0))) by (unfold Qcmax; destruct (Qcleb_spec 0 (1 - ofZ y * (v * 1 + 0))); qclra).
  set (M1 := Qcmax 0 (1 - ofZ y * (v * 1 + 0))) in *. clearbody M1.
  assert (Q := Qc_sq_nonneg (ofZ y * v - q)).
  assert (Hq : 0 <= q) by (vm_compute; discriminate). assert (H2 : 0 <= / (1 + 1)) by (vm_compute; discriminate).
  assert (P1 := Qcmult_le_compat_r _ _ _ M Hq). assert (P2 := Qcmult_le_compat_r _ _ _ Q H2). rewrite Qcmult_0_l in P1, P2.
  assert (I : q * (M1 + 0) + (v * v + 0) / (1 + 1) + 0 - (q * (/ (1 + 1) + q + 0) + (ofZ y * q * (ofZ y * q) + 0) / (1 + 1)) =
              (M1 - (1 - ofZ y * (v * 1 + 0))) * q + (ofZ y * v - q) * (ofZ y * v - q) * / (1 + 1)).
  { unfold q. destruct Hy as [->| ->]; rewrite ?ofZ_opp1, ?ofZ_1; field; repeat split; discriminate. }
  clear - P1 P2 I. set (r := _ - _) in I at 1.
  match type of I with r = ?x + ?y => assert (R : 0 <= r) by (rewrite I; clear - P1 P2; set (x1 := x) in *; set (y1 := y) in *; clearbody x1 y1; qclra) end.
  unfold r in R. clear - R. match goal with |- ?L <= ?Rr => set (l := L) in *; set (rr := Rr) in *; clearbody l rr end. qclra.
Qed.
Lemma ex44_labels : Forall (multi_sample 1 2) [([1], [1; 0]%nat)] /\
  near_minimal (ml_task (ML 2 1 [])) 2 (Q2Qc (1 # 16)) [([1], [1; 0]%nat)] [Q2Qc (1 # 8); - Q2Qc (1 # 8)] 0.
Proof.
  assert (HS : Forall (multi_sample 1 2) [([1], [1; 0]%nat)]) by (repeat constructor).
  split; [exact HS|]. assert (K := near_labels 1 2 (Q2Qc (1 # 16)) [([1], [1; 0]%nat)] [Q2Qc (1 # 8); - Q2Qc (1 # 8)] (fun _ => 0) HS eq_refl).
  change (sumn 2 (fun _ => 0)) with (0 + 0 + 0) in K. replace (0 + 0 + 0) with 0 in K by ring. apply K. intros l Hl.
  replace (ofN 4 * Q2Qc (1 # 16)) with (Q2Qc (1 # 4)) by (apply Qc_is_canon; vm_compute; reflexivity). replace (ofN 4 * 0) with 0 by ring.
  destruct l as [|[|]]; [| |lia].
  - replace (vscale (1 + 1) (block 1 [Q2Qc (1 # 8); - Q2Qc (1 # 8)] 0)) with (vscale (ofZ 1) ex44_u); [exact (ex44_min 1 (or_introl eq_refl))|].
    unfold vscale, ex44_u. cbn. f_equal. apply Qc_is_canon; vm_compute; reflexivity.
  - replace (vscale (1 + 1) (block 1 [Q2Qc (1 # 8); - Q2Qc (1 # 8)] 1)) with (vscale (ofZ (-1)) ex44_u); [exact (ex44_min (-1) (or_intror eq_refl))|].
    unfold vscale, ex44_u. cbn. f_equal. apply Qc_is_canon; vm_compute; reflexivity.
Qed.
Lemma ex44_classes : near_minimal (mc_task 2 1 (get1 [1; 1])) 2 (Q2Qc (1 # 8)) [([1], 1%nat)] [- Q2Qc (1 # 8); Q2Qc (1 # 8)] 0.
Proof.
  assert (HS : Forall (binary_sample 1) [([1], 1%Z)]) by (constructor; [split; [reflexivity|left; reflexivity]|constructor]).
  assert (K := ex44_min 1 (or_introl eq_refl)).
  replace (Q2Qc (1 # 4)) with (Q2Qc (1 # 8) + Q2Qc (1 # 8)) in K by (apply Qc_is_canon; vm_compute; reflexivity).
  assert (Q := binary_to_two_classes (get1 [1; 1]) (conj eq_refl eq_refl) 1 _ _ _ _ HS K).
  replace (0 / (1 + 1)) with 0 in Q by (apply Qc_is_canon; vm_compute; reflexivity).
  replace (opposite 1 (vscale (ofZ 1) ex44_u)) with [- Q2Qc (1 # 8); Q2Qc (1 # 8)] in Q; [exact Q|].
  unfold opposite, blocks, tab2, tab1, vscale, ex44_u. cbn. f_equal.
Qed.
