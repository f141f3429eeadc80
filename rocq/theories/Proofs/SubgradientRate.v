(** Subgradient descent on a sum of strongly convex functions visited in any order: distance to
    any point and value of the last iterate. *)
From Verif Require Import Base.QcBase Base.Sums Proofs.LearnerProofs.
Open Scope Qc_scope.

Lemma sq_le x y : 0 <= y -> x * x <= y * y -> x <= y.
Proof.
  intros Hy H. destruct (Qcleb_spec x y) as [Q|Q]; [exact Q|]. exfalso. revert H. apply Qclt_not_le.
  apply Qcle_lt_trans with (x * y); [apply Qcmult_le_compat_r; [apply Qclt_le_weak; exact Q|exact Hy]|].
  rewrite (Qcmult_comm x y). apply Qcmult_lt_compat_r; [eapply Qcle_lt_trans; eauto|exact Q].
Qed.
Lemma sq_mono a b : 0 <= a -> a <= b -> a * a <= b * b.
Proof.
  intros Ha H. apply Qcle_trans with (b * a); [apply Qcmult_le_compat_r; auto|]. rewrite (Qcmult_comm b a). apply Qcmult_le_compat_r; [exact H|].
  eapply Qcle_trans; eauto.
Qed.
(** |a|^2 <= A^2 and |b|^2 <= B^2 give a.b <= A B *)
Lemma dot_le a b A B : length a = length b -> 0 <= A -> 0 <= B -> normsq a <= A * A -> normsq b <= B * B -> dot a b <= A * B.
Proof.
  intros HL HA HB H1 H2. apply sq_le; [apply Qcmult_nonneg; auto|]. eapply Qcle_trans; [apply cauchy_schwarz; exact HL|].
  replace (A * B * (A * B)) with (A * A * (B * B)) by ring. apply Qcle_trans with (A * A * normsq b).
  - apply Qcmult_le_compat_r; [exact H1|apply normsq_nonneg].
  - rewrite !(Qcmult_comm (A * A)). apply Qcmult_le_compat_r; [exact H2|apply Qc_sq_nonneg].
Qed.
(** without square roots: |a|^2 <= p^2 G, |b|^2 <= q^2 G *)
Lemma dot_scaled a b p q G : length a = length b -> 0 <= p -> 0 <= q -> 0 <= G -> normsq a <= p * p * G -> normsq b <= q * q * G -> dot a b <= p * q * G.
Proof.
  intros HL HP HQ HG H1 H2. apply sq_le; [repeat apply Qcmult_nonneg; auto|]. eapply Qcle_trans; [apply cauchy_schwarz; exact HL|].
  replace (p * q * G * (p * q * G)) with (p * p * G * (q * q * G)) by ring. apply Qcle_trans with (p * p * G * normsq b).
  - apply Qcmult_le_compat_r; [exact H1|apply normsq_nonneg].
  - rewrite !(Qcmult_comm (p * p * G)). apply Qcmult_le_compat_r; [exact H2|]. apply Qcmult_nonneg; [apply Qc_sq_nonneg|exact HG].
Qed.
Lemma dot_neg_l a b : dot (vscale (-(1)) a) b = - dot a b.
Proof. rewrite dot_vscale_l. ring. Qed.
Lemma normsq_scale c a : normsq (vscale c a) = c * c * normsq a.
Proof. unfold normsq. rewrite dot_vscale_l, dot_vscale_r. ring. Qed.

Section abs.
Context (d : nat) (G B : Qc).
Hypothesis HG : 0 <= G.

Definition slope (F : list Qc -> Qc) (w g : list Qc) : Prop :=
  length g = d /\ normsq g <= G /\
  forall w', length w' = d -> F w + F w + (dot g (vsub w' w) + dot g (vsub w' w)) + normsq (vsub w' w) <= F w' + F w'.
Definition inball (w : list Qc) : Prop := length w = d /\ normsq w <= B.
Definition sloped (F : list Qc -> Qc) : Prop := forall w, inball w -> exists g, slope F w g.

Fixpoint descent (s : Qc) (w : list Qc) (l : list ((list Qc -> Qc) * list Qc)) (w' : list Qc) : Prop :=
  match l with
  | [] => w' = w
  | (F, g) :: r => slope F w g /\ inball (vsub w (vscale (/ s) g)) /\ descent (s + 1) (vsub w (vscale (/ s) g)) r w'
  end.

Lemma descent_app l1 : forall s w l2 w1 w2, descent s w l1 w1 -> descent (s + ofN (length l1)) w1 l2 w2 -> descent s w (l1 ++ l2) w2.
Proof.
  induction l1 as [|[F g] l1 IH]; intros s w l2 w1 w2 H1 H2.
  - cbn [descent] in H1. subst w1. cbn [length app] in *. rewrite ofN_0 in H2. replace (s + 0) with s in H2 by ring. exact H2.
  - cbn [app descent] in *. destruct H1 as [A [A' C]]. split; [exact A|]. split; [exact A'|]. eapply IH; [exact C|].
    cbn [length] in H2. rewrite ofN_S in H2. replace (s + 1 + ofN (length l1)) with (s + (1 + ofN (length l1))) by ring. exact H2.
Qed.
Lemma descent_ball l : forall s w w', inball w -> descent s w l w' -> inball w'.
Proof. induction l as [|[F g] l IH]; intros s w w' H D; cbn [descent] in D; [subst; exact H|]. destruct D as [_ [A D]]. eapply IH; eauto. Qed.

Lemma ge1_pos s : 1 <= s -> 0 < s.
Proof. intro H. apply Qclt_le_trans with 1; [reflexivity|exact H]. Qed.
Lemma ge1_nz s : 1 <= s -> s <> 0.
Proof. intros H E. subst s. apply H. reflexivity. Qed.

(** one step *)
Lemma step_sq F w g s u : 1 <= s -> length w = d -> length u = d -> slope F w g ->
  s * normsq (vsub (vsub w (vscale (/ s) g)) u) + (F w + F w) <= (s - 1) * normsq (vsub w u) + (F u + F u) + G / s.
Proof.
  intros Hs Hw Hu [Lg [NG HS]]. specialize (HS u Hu). assert (NZ := ge1_nz s Hs).
  assert (E1 : normsq (vsub u w) = normsq (vsub w u)) by (unfold normsq; rewrite !dot_vsub_l, !dot_vsub_r by congruence; ring).
  assert (E2 : dot g (vsub u w) = - dot g (vsub w u)) by (rewrite !dot_vsub_r by congruence; ring).
  assert (LW : length (vsub w u) = d) by (rewrite vsub_length; congruence).
  assert (E3 : vsub (vsub w (vscale (/ s) g)) u = vsub (vsub w u) (vscale (/ s) g)).
  { assert (LX : length (vsub w (vscale (/ s) g)) = d) by (rewrite vsub_length; rewrite ?vscale_length; congruence).
    apply vec_ext. { rewrite !vsub_length; rewrite ?vscale_length, ?LX, ?LW; congruence. }
    intros i _. rewrite !get1_vsub by (rewrite ?vscale_length, ?LX, ?LW; congruence). ring. }
  assert (E4 : normsq (vsub (vsub w u) (vscale (/ s) g)) = normsq (vsub w u) - (/ s) * (dot g (vsub w u) + dot g (vsub w u)) + (/ s) * (/ s) * normsq g).
  { generalize (vsub w u), LW. clear - Lg. intros v LW. unfold normsq. rewrite dot_vsub_l, !dot_vsub_r by (rewrite vscale_length; congruence). rewrite !dot_vscale_l, !dot_vscale_r.
    rewrite (dot_comm v g). ring. }
  rewrite E1, E2 in HS. rewrite E3, E4. set (D := normsq (vsub w u)) in *. set (I := dot g (vsub w u)) in *. set (N := normsq g) in *.
  assert (GN : N / s <= G / s) by (apply Qcmult_le_compat_r; [exact NG|apply Qclt_le_weak, Qcinv_pos, ge1_pos; exact Hs]).
  replace (s * (D - / s * (I + I) + / s * / s * N)) with (s * D - (I + I) + N / s) by (field; exact NZ).
  replace ((s - 1) * D) with (s * D - D) by ring. set (q := N / s) in *. set (q' := G / s) in *. set (sD := s * D). clearbody q q' sD D I. qclra.
Qed.

Definition vals (l : list ((list Qc -> Qc) * list Qc)) (v : list Qc) : Qc := lsum (map (fun p => fst p v) l).

(** one epoch: [i] steps done since the epoch began at [w0] with divisor [s0] *)
Lemma epoch_gen s0 w0 u : 1 <= s0 -> inball w0 -> length u = d -> forall l i w w', inball w -> normsq (vsub w w0) <= (ofN i / s0) * (ofN i / s0) * G ->
  descent (s0 + ofN i) w l w' -> Forall (fun p => exists g0, slope (fst p) w0 g0) l ->
  (s0 + ofN i + ofN (length l) - 1) * normsq (vsub w' u) + (vals l w0 + vals l w0) <=
    (s0 + ofN i - 1) * normsq (vsub w u) + (vals l u + vals l u) + ofN (length l) * (ofN i + ofN i + ofN (length l)) * (G / s0).
Proof.
  intros Hs HW0 Hu. assert (P0 := ge1_pos s0 Hs). assert (NZ := ge1_nz s0 Hs). induction l as [|[F g] l IH]; intros i w w' HW HD D HF.
  - cbn [descent] in D. subst w'. unfold vals. cbn [map lsum length]. rewrite ofN_0.
    match goal with |- ?a <= ?b => replace a with b; [apply Qcle_refl|] end. ring.
  - cbn [descent] in D. destruct D as [SL [IB D]]. apply Forall_cons_iff in HF. destruct HF as [[g0 HF] HF']. cbn [fst] in HF.
    set (w1 := vsub w (vscale (/ (s0 + ofN i)) g)) in *.
    assert (PI := ofN_nonneg i). assert (Hi : 1 <= s0 + ofN i) by qclra.
    assert (P1 := ge1_pos _ Hi). assert (NZ1 := ge1_nz _ Hi).
    assert (LW : length w = d) by apply HW. assert (LW0 : length w0 = d) by apply HW0. assert (LG : length g = d) by apply SL.
    assert (LV : length (vsub w w0) = d) by (rewrite vsub_length; congruence).
    assert (IV : / (s0 + ofN i) <= / s0).
    { apply Qcle_trans with (s0 * / (s0 + ofN i) * / s0).
      - match goal with |- ?a <= ?b => replace b with a; [apply Qcle_refl|] end. field. auto.
      - rewrite <- (Qcmult_1_l (/ s0)) at 2. apply Qcmult_le_compat_r; [|apply Qclt_le_weak, Qcinv_pos; exact P0].
        rewrite <- (Qcmult_inv_r (s0 + ofN i)) by exact NZ1. apply Qcmult_le_compat_r; [qclra|apply Qclt_le_weak, Qcinv_pos; exact P1]. }
    assert (PV : 0 <= / (s0 + ofN i)) by (apply Qclt_le_weak, Qcinv_pos; exact P1).
    assert (PV0 : 0 <= / s0) by (apply Qclt_le_weak, Qcinv_pos; exact P0).
    assert (PQ : 0 <= ofN i / s0) by (apply Qcmult_nonneg; auto).
    assert (NS : normsq (vscale (- / (s0 + ofN i)) g) <= / s0 * / s0 * G).
    { rewrite normsq_scale. replace (- / (s0 + ofN i) * - / (s0 + ofN i)) with (/ (s0 + ofN i) * / (s0 + ofN i)) by ring.
      apply Qcle_trans with (/ (s0 + ofN i) * / (s0 + ofN i) * G).
      - rewrite !(Qcmult_comm (/ (s0 + ofN i) * / (s0 + ofN i))). apply Qcmult_le_compat_r; [apply SL|apply Qc_sq_nonneg].
      - apply Qcmult_le_compat_r; [apply sq_mono; auto|exact HG]. }
    assert (EW : vsub w1 w0 = vadd (vsub w w0) (vscale (- / (s0 + ofN i)) g)).
    { unfold w1. assert (LX : length (vsub w (vscale (/ (s0 + ofN i)) g)) = d) by (rewrite vsub_length; rewrite ?vscale_length; congruence).
      apply vec_ext. { rewrite vsub_length, vadd_length; rewrite ?vscale_length; congruence. }
      intros j _. rewrite get1_vadd by (rewrite vscale_length; congruence). rewrite !get1_vsub by (rewrite ?vscale_length; congruence). rewrite !get1_vscale. ring. }
    assert (HD1 : normsq (vsub w1 w0) <= (ofN (S i) / s0) * (ofN (S i) / s0) * G).
    { rewrite EW. assert (DT := dot_scaled (vsub w w0) (vscale (- / (s0 + ofN i)) g) (ofN i / s0) (/ s0) G ltac:(rewrite vscale_length; congruence) PQ PV0 HG HD NS).
      unfold normsq. rewrite dot_vadd_l, !dot_vadd_r by (rewrite vscale_length; congruence). rewrite (dot_comm (vscale _ g) (vsub w w0)). unfold normsq in HD, NS.
      rewrite ofN_S. replace ((1 + ofN i) / s0 * ((1 + ofN i) / s0) * G) with (ofN i / s0 * (ofN i / s0) * G + (ofN i / s0 * / s0 * G + ofN i / s0 * / s0 * G) + / s0 * / s0 * G) by (unfold Qcdiv; ring).
      set (a := dot (vsub w w0) (vsub w w0)) in *. set (b := dot (vsub w w0) _) in *. set (c := dot (vscale _ g) _) in *. clearbody a b c.
      set (x := ofN i / s0 * (ofN i / s0) * G) in *. set (y := ofN i / s0 * / s0 * G) in *. set (z := / s0 * / s0 * G) in *. clearbody x y z. clear - DT HD NS. qclra. }
    replace (s0 + ofN i + 1) with (s0 + ofN (S i)) in D by (rewrite ofN_S; ring).
    assert (IH' := IH (S i) w1 w' IB HD1 D HF').
    assert (ST := step_sq F w g (s0 + ofN i) u Hi LW Hu SL). fold w1 in ST.
    (* the component at the start of the epoch *)
    assert (DR : F w0 + F w0 <= F w + F w + (ofN i * (G / s0) + ofN i * (G / s0))).
    { destruct HF as [L0 [N0 H0]]. specialize (H0 w LW). assert (NN := normsq_nonneg (vsub w w0)).
      assert (N0' : normsq (vscale (-(1)) g0) <= 1 * 1 * G) by (rewrite normsq_scale; replace (-(1) * -(1)) with 1 by ring; rewrite !Qcmult_1_l; exact N0).
      assert (DT := dot_scaled (vscale (-(1)) g0) (vsub w w0) 1 (ofN i / s0) G ltac:(rewrite vscale_length; congruence) ltac:(discriminate) PQ HG N0' HD).
      rewrite dot_neg_l in DT. replace (1 * (ofN i / s0) * G) with (ofN i * (G / s0)) in DT by (unfold Qcdiv; ring).
      set (x := ofN i * (G / s0)) in *. set (q := dot g0 (vsub w w0)) in *. set (nn := normsq (vsub w w0)) in *. clearbody x q nn. clear - DT H0 NN. qclra. }
    assert (GS : G / (s0 + ofN i) <= G / s0) by (unfold Qcdiv; rewrite !(Qcmult_comm G); apply Qcmult_le_compat_r; [exact IV|exact HG]).
    unfold vals in *. cbn [map fst lsum length]. rewrite !ofN_S. rewrite ofN_S in IH'.
    set (k := ofN (length l)) in *. set (x := G / s0) in *. set (ii := ofN i) in *.
    set (a := normsq (vsub w' u)) in *. set (b := normsq (vsub w1 u)) in *. set (c := normsq (vsub w u)) in *.
    set (V0 := lsum (map _ l)) in *. set (Vu := lsum (map _ l)) in *.
    replace (s0 + (1 + ii) + k - 1) with (s0 + ii + (1 + k) - 1) in IH' by ring. set (la := (s0 + ii + (1 + k) - 1) * a) in *.
    replace (s0 + (1 + ii) - 1) with (s0 + ii) in IH' by ring. set (lb := (s0 + ii) * b) in *. set (lc := (s0 + ii - 1) * c) in *.
    replace (k * (1 + ii + (1 + ii) + k) * x) with (k * (ii + ii + k) * x + (k * x + k * x)) in IH' by ring.
    replace ((1 + k) * (ii + ii + (1 + k)) * x) with (k * (ii + ii + k) * x + (k * x + k * x) + (ii * x + ii * x) + x) by ring.
    set (m1 := k * (ii + ii + k) * x) in *. set (m2 := k * x) in *. set (m3 := ii * x) in *.
    set (f0 := F w0) in *. set (fw := F w) in *. set (fu := F u) in *. set (y := G / (s0 + ii)) in *.
    clearbody m1 m2 m3 la lb lc x y f0 fw fu V0 Vu. clear - IH' ST DR GS. qclra.
Qed.
Lemma epoch_bound s w l w' u : 1 <= s -> inball w -> length u = d -> descent s w l w' -> Forall (fun p => sloped (fst p)) l ->
  (s + ofN (length l) - 1) * normsq (vsub w' u) + (vals l w + vals l w) <=
    (s - 1) * normsq (vsub w u) + (vals l u + vals l u) + ofN (length l) * ofN (length l) * (G / s).
Proof.
  intros Hs HW Hu D HF. assert (E := epoch_gen s w u Hs HW Hu l 0 w w' HW). rewrite ofN_0 in E.
  replace (s + 0) with s in E by ring. replace (0 / s * (0 / s) * G) with 0 in E by (unfold Qcdiv; ring).
  replace (0 + 0 + ofN (length l)) with (ofN (length l)) in E by ring. apply E; auto.
  - assert (LW := proj1 HW). unfold normsq. rewrite dot_vsub_l, !dot_vsub_r by auto. match goal with |- ?a <= _ => replace a with 0 by ring end. apply Qcle_refl.
  - eapply Forall_impl; [|exact HF]. intros p Hp. apply Hp. exact HW.
Qed.

(** ** many epochs of [m] steps on one objective [f] *)
Context (m : nat) (f : list Qc -> Qc).
Hypothesis Hm : (0 < m)%nat.
(** [ws]: the points at which epochs began *)
Fixpoint epochs (s : Qc) (w : list Qc) (ws : list (list Qc)) (w' : list Qc) : Prop :=
  match ws with
  | [] => w' = w
  | x :: r => x = w /\ exists l w1, length l = m /\ descent s w l w1 /\ Forall (fun p => sloped (fst p)) l /\
      (forall v, length v = d -> vals l v = ofN m * f v) /\ epochs (s + ofN m) w1 r w'
  end.
Fixpoint divisors (s : Qc) (E : nat) : Qc := match E with O => 0 | S e => / s + divisors (s + ofN m) e end.

Lemma epochs_ball ws : forall s w w', inball w -> epochs s w ws w' -> inball w' /\ Forall inball ws.
Proof.
  induction ws as [|x ws IH]; intros s w w' HW H; cbn [epochs] in H; [subst; auto|]. destruct H as [-> [l [w1 [_ [D [_ [_ H]]]]]]].
  apply IH in H; [|eapply descent_ball; eauto]. destruct H as [A A']. split; [exact A|]. constructor; auto.
Qed.
Lemma epochs_bound u : length u = d -> forall ws s w w', 1 <= s -> inball w -> epochs s w ws w' ->
  (s + ofN (length ws) * ofN m - 1) * normsq (vsub w' u) + (ofN m * lsum (map f ws) + ofN m * lsum (map f ws)) <=
    (s - 1) * normsq (vsub w u) + (ofN m * (ofN (length ws) * f u) + ofN m * (ofN (length ws) * f u)) + ofN m * ofN m * G * divisors s (length ws).
Proof.
  intro Hu. induction ws as [|x ws IH]; intros s w w' Hs HW H.
  - cbn [epochs] in H. subst w'. cbn [map lsum length divisors]. rewrite ofN_0. match goal with |- ?a <= ?b => replace a with b; [apply Qcle_refl|] end. ring.
  - cbn [epochs] in H. destruct H as [-> [l [w1 [HL [D [HF [HV H]]]]]]]. assert (PM := ofN_nonneg m).
    assert (E := epoch_bound s w l w1 u Hs HW Hu D HF). rewrite HL, (HV w (proj1 HW)), (HV u Hu) in E.
    assert (IH' := IH (s + ofN m) w1 w' ltac:(clear - Hs PM; qclra) (descent_ball l s w w1 HW D) H).
    cbn [map lsum length divisors]. rewrite !ofN_S. set (k := ofN (length ws)) in *. set (mm := ofN m) in *.
    replace (s + mm + k * mm - 1) with (s + (1 + k) * mm - 1) in IH' by ring. set (D' := divisors _ _) in *.
    replace (mm * mm * G * (/ s + D')) with (mm * mm * (G / s) + mm * mm * G * D') by (unfold Qcdiv; ring).
    replace (mm * (f w + lsum (map f ws))) with (mm * f w + mm * lsum (map f ws)) by ring.
    replace (mm * ((1 + k) * f u)) with (mm * f u + mm * (k * f u)) by ring.
    set (a := (s + (1 + k) * mm - 1) * normsq (vsub w' u)) in *. set (b := (s + mm - 1) * normsq (vsub w1 u)) in *. set (c := (s - 1) * normsq (vsub w u)) in *.
    set (x1 := mm * f w) in *. set (x2 := mm * lsum (map f ws)) in *. set (x3 := mm * f u) in *. set (x4 := mm * (k * f u)) in *.
    set (x5 := mm * mm * (G / s)) in *. set (x6 := mm * mm * G * D') in *. clearbody a b c x1 x2 x3 x4 x5 x6. clear - E IH'. qclra.
Qed.

(** the smallest of the values at the beginnings of epochs *)
Lemma best_of (ws : list (list Qc)) : ws <> [] -> exists b, In b ws /\ forall x, In x ws -> f b <= f x.
Proof.
  induction ws as [|a ws IH]; [congruence|]. intros _. destruct ws as [|a' ws].
  - exists a. split; [left; reflexivity|]. intros x [<-|[]]. apply Qcle_refl.
  - destruct IH as [b [B1 B2]]; [discriminate|]. destruct (Qcleb_spec (f a) (f b)) as [Q|Q].
    + exists a. split; [left; reflexivity|]. intros x [<-|Hx]; [apply Qcle_refl|]. eapply Qcle_trans; [exact Q|apply B2; exact Hx].
    + exists b. split; [right; exact B1|]. intros x [<-|Hx]; [apply Qclt_le_weak; exact Q|apply B2; exact Hx].
Qed.
Lemma lsum_ge_const (l : list Qc) c : (forall x, In x l -> c <= x) -> ofN (length l) * c <= lsum l.
Proof.
  induction l as [|a l IH]; intro H; cbn [length lsum].
  - rewrite ofN_0. replace (0 * c) with 0 by ring. apply Qcle_refl.
  - rewrite ofN_S. replace ((1 + ofN (length l)) * c) with (c + ofN (length l) * c) by ring. apply Qcplus_le_compat; [apply H; left; reflexivity|]. apply IH. intros x Hx. apply H. right. exact Hx.
Qed.

(** [f] itself has slopes *)
Lemma sum_slopes l w : Forall (fun p => exists g, slope (fst p) w g) l -> length w = d -> exists g, length g = d /\ normsq g <= ofN (length l) * ofN (length l) * G /\
  forall w', length w' = d -> vals l w + vals l w + (dot g (vsub w' w) + dot g (vsub w' w)) + ofN (length l) * normsq (vsub w' w) <= vals l w' + vals l w'.
Proof.
  intros HF HW. induction l as [|[F g0] l IH].
  - exists (vzero d). split; [apply vzero_length|]. unfold vals. cbn [length map lsum]. rewrite ofN_0. split.
    + unfold normsq. rewrite dot_vzero_l. match goal with |- _ <= ?b => replace b with 0 by ring end. apply Qcle_refl.
    + intros w' _. rewrite dot_vzero_l. match goal with |- ?a <= ?b => replace a with b by ring end. apply Qcle_refl.
  - apply Forall_cons_iff in HF. destruct HF as [[a [A1 [A2 A3]]] HF]. cbn [fst] in *. destruct (IH HF) as [g [B1 [B2 B3]]].
    assert (PK := ofN_nonneg (length l)). exists (vadd a g). split; [rewrite vadd_length; congruence|]. cbn [length]. rewrite ofN_S. split.
    + assert (A2' : normsq a <= 1 * 1 * G) by (rewrite !Qcmult_1_l; exact A2).
      assert (DT := dot_scaled a g 1 (ofN (length l)) G ltac:(congruence) ltac:(discriminate) PK HG A2' B2). unfold normsq in *. rewrite dot_vadd_l, !dot_vadd_r by congruence.
      rewrite (dot_comm g a). rewrite Qcmult_1_l in DT.
      replace ((1 + ofN (length l)) * (1 + ofN (length l)) * G) with (G + (ofN (length l) * G + ofN (length l) * G) + ofN (length l) * ofN (length l) * G) by ring.
      set (k := ofN (length l)) in *. set (x := dot a a) in *. set (y := dot a g) in *. set (z := dot g g) in *. set (p := k * G) in *. set (q := k * k * G) in *.
      clearbody x y z p q. clear - A2 DT B2. qclra.
    + intros w' Hw'. specialize (A3 w' Hw'). specialize (B3 w' Hw'). unfold vals in *. cbn [map lsum fst].
      assert (LV : length (vsub w' w) = d) by (rewrite vsub_length; congruence). rewrite !dot_vadd_l by congruence.
      set (k := ofN (length l)) in *. replace ((1 + k) * normsq (vsub w' w)) with (normsq (vsub w' w) + k * normsq (vsub w' w)) by ring.
      set (n1 := normsq (vsub w' w)) in *. set (n2 := k * n1) in *. set (d1 := dot a (vsub w' w)) in *. set (d2 := dot g (vsub w' w)) in *.
      set (s1 := lsum (map _ l)) in *. set (s2 := lsum (map _ l)) in *. clearbody n1 n2 d1 d2 s1 s2. clear - A3 B3. qclra.
Qed.
Lemma mean_slope l w : length l = m -> Forall (fun p => sloped (fst p)) l -> inball w -> (forall v, length v = d -> vals l v = ofN m * f v) -> exists g, slope f w g.
Proof.
  intros HL HF HW HV. destruct (sum_slopes l w) as [g [B1 [B2 B3]]]; [|apply HW|].
  { eapply Forall_impl; [|exact HF]. intros p Hp. apply Hp. exact HW. }
  rewrite HL in *. assert (PM := ofN_pos m Hm). assert (NZ := ofN_neq0 m Hm). assert (PI : 0 <= / ofN m) by (apply Qclt_le_weak, Qcinv_pos; exact PM).
  exists (vscale (/ ofN m) g). split; [rewrite vscale_length; exact B1|]. split.
  - rewrite normsq_scale. apply Qcle_trans with (/ ofN m * / ofN m * (ofN m * ofN m * G)).
    + rewrite !(Qcmult_comm (/ ofN m * / ofN m)). apply Qcmult_le_compat_r; [exact B2|apply Qc_sq_nonneg].
    + match goal with |- ?a <= ?b => replace a with b; [apply Qcle_refl|] end. set (z := ofN m) in *. clearbody z. field. exact NZ.
  - intros w' Hw'. specialize (B3 w' Hw'). rewrite (HV w (proj1 HW)), (HV w' Hw') in B3. rewrite dot_vscale_l.
    apply (Qcmult_le_compat_r _ _ (/ ofN m)) in B3; [|exact PI]. set (z := ofN m) in *. set (x := f w) in *. set (y := f w') in *. set (a := dot g (vsub w' w)) in *. set (b := normsq (vsub w' w)) in *.
    clearbody z x y a b. replace ((z * x + z * x + (a + a) + z * b) * / z) with (x + x + (/ z * a + / z * a) + b) in B3 by (field; exact NZ).
    replace ((z * y + z * y) * / z) with (y + y) in B3 by (field; exact NZ). exact B3.
Qed.
Lemma value_gap w g b r N : slope f w g -> length w = d -> length b = d -> 0 <= r -> normsq (vsub w b) <= N -> G * N <= r * r -> f w <= f b + r.
Proof.
  intros [LG [NG HS]] Hw Hb Hr HN HR. specialize (HS b Hb). assert (NN := normsq_nonneg (vsub b w)).
  assert (E2 : dot g (vsub b w) = - dot g (vsub w b)) by (rewrite !dot_vsub_r by congruence; ring).
  assert (DT : dot g (vsub w b) <= r).
  { apply sq_le; [exact Hr|]. eapply Qcle_trans; [apply cauchy_schwarz; rewrite vsub_length; congruence|].
    apply Qcle_trans with (G * normsq (vsub w b)); [apply Qcmult_le_compat_r; [exact NG|apply normsq_nonneg]|].
    eapply Qcle_trans; [|exact HR]. rewrite !(Qcmult_comm G). apply Qcmult_le_compat_r; [exact HN|exact HG]. }
  rewrite E2 in HS. set (q := dot g (vsub w b)) in *. set (nn := normsq (vsub b w)) in *. clearbody q nn. clear - HS DT NN.
  assert (f w + f w <= f b + f b + (r + r)) by qclra. qclra.
Qed.

(** the last iterate; [M] bounds the squared diameter of the ball *)
Lemma last_iterate s w ws w' M : 1 <= s -> inball w -> epochs s w ws w' -> ws <> [] ->
  (forall v v', inball v -> inball v' -> normsq (vsub v v') <= M) -> (exists g, slope f w' g) ->
  forall r, 0 <= r -> G * ((s - 1) * M + ofN m * ofN m * G * divisors s (length ws)) <= (s + ofN (length ws) * ofN m - 1) * (r * r) ->
  forall u, length u = d ->
  f w' <= f u + ((s - 1) * normsq (vsub w u) + ofN m * ofN m * G * divisors s (length ws)) / ((1 + 1) * (ofN m * ofN (length ws))) + r /\ f w' <= f w + r.
Proof.
  intros Hs HW H NE HM [g SL] r Hr HR u Hu. destruct (best_of ws NE) as [b [B1 B2]]. destruct (epochs_ball ws s w w' HW H) as [HW' FB].
  assert (IB : inball b) by (rewrite Forall_forall in FB; auto). assert (E := epochs_bound b (proj1 IB) ws s w w' Hs HW H). assert (EU := epochs_bound u Hu ws s w w' Hs HW H).
  assert (PM := ofN_pos m Hm). assert (PL : (0 < length ws)%nat) by (destruct ws; [congruence|cbn; lia]). assert (PE := ofN_pos _ PL).
  assert (SB : ofN (length ws) * f b <= lsum (map f ws)).
  { rewrite <- (map_length f ws). apply lsum_ge_const. intros x Hx. apply in_map_iff in Hx. destruct Hx as [y [<- Hy]]. apply B2. exact Hy. }
  assert (SB' : ofN m * (ofN (length ws) * f b) <= ofN m * lsum (map f ws)) by (rewrite !(Qcmult_comm (ofN m)); apply Qcmult_le_compat_r; [exact SB|apply Qclt_le_weak; exact PM]).
  assert (P1 : 0 < s + ofN (length ws) * ofN m - 1).
  { assert (0 < ofN (length ws) * ofN m) by (apply Qcmult_pos; auto). set (q := ofN (length ws) * ofN m) in *. clearbody q. clear - Hs H0. qclra. }
  set (q := s + ofN (length ws) * ofN m - 1) in *. set (DV := ofN m * ofN m * G * divisors s (length ws)) in *.
  assert (NM : (s - 1) * normsq (vsub w b) <= (s - 1) * M).
  { rewrite !(Qcmult_comm (s - 1)). apply Qcmult_le_compat_r; [apply HM; auto|]. clear - Hs. qclra. }
  assert (NB : normsq (vsub w' b) <= ((s - 1) * M + DV) / q).
  { apply Qcle_trans with (q * normsq (vsub w' b) / q).
    - match goal with |- ?a <= ?b => replace b with a; [apply Qcle_refl|] end. unfold Qcdiv. rewrite (Qcmult_comm q), <- Qcmult_assoc, Qcmult_inv_r, Qcmult_1_r; [reflexivity|].
      intro Z. rewrite Z in P1. discriminate P1.
    - apply Qcmult_le_compat_r; [|apply Qclt_le_weak, Qcinv_pos; exact P1].
      set (x := q * normsq (vsub w' b)) in *. set (y := ofN m * lsum (map f ws)) in *. set (z := ofN m * (ofN (length ws) * f b)) in *. set (p := (s - 1) * normsq (vsub w b)) in *. set (p' := (s - 1) * M) in *.
      clearbody x y z p p' DV. clear - E SB' NM. qclra. }
  assert (VG : f w' <= f b + r).
  { eapply value_gap; [exact SL|apply HW'|apply IB|exact Hr|exact NB|].
    apply Qcle_trans with (G * ((s - 1) * M + DV) * / q); [unfold Qcdiv; rewrite Qcmult_assoc; apply Qcle_refl|].
    apply Qcle_trans with (q * (r * r) * / q); [apply Qcmult_le_compat_r; [exact HR|apply Qclt_le_weak, Qcinv_pos; exact P1]|].
    rewrite (Qcmult_comm q), <- Qcmult_assoc, Qcmult_inv_r, Qcmult_1_r; [apply Qcle_refl|]. intro Z. rewrite Z in P1. discriminate P1. }
  split.
  - assert (NU := normsq_nonneg (vsub w' u)). assert (QN : 0 <= q * normsq (vsub w' u)) by (apply Qcmult_nonneg; [apply Qclt_le_weak; exact P1|exact NU]).
    set (A := (s - 1) * normsq (vsub w u) + DV) in *. set (k := ofN m * ofN (length ws)) in *. assert (PK : 0 < k) by (apply Qcmult_pos; auto).
    assert (KB : k * f b + k * f b <= k * f u + k * f u + A).
    { unfold k. rewrite <- !Qcmult_assoc. set (y := ofN m * lsum (map f ws)) in *. set (z := ofN m * (ofN (length ws) * f b)) in *. set (z' := ofN m * (ofN (length ws) * f u)) in *.
      unfold A in *. set (x := q * normsq (vsub w' u)) in *. set (p := (s - 1) * normsq (vsub w u)) in *. clearbody x y z z' p DV. clear - EU SB' QN. qclra. }
    assert (BU : f b <= f u + A / ((1 + 1) * k)).
    { assert (PI : 0 < / ((1 + 1) * k)) by (apply Qcinv_pos, Qcmult_pos; [reflexivity|exact PK]). apply (Qcmult_le_compat_r _ _ (/ ((1 + 1) * k))) in KB; [|apply Qclt_le_weak; exact PI].
      assert (NK : k <> 0) by (intro Z; rewrite Z in PK; discriminate PK). assert (N2 : 1 + 1 <> 0) by discriminate.
      replace ((k * f b + k * f b) * / ((1 + 1) * k)) with (f b) in KB.
      - replace ((k * f u + k * f u + A) * / ((1 + 1) * k)) with (f u + A / ((1 + 1) * k)) in KB; [exact KB|]. generalize (f u). intro y. clearbody A k. field. auto.
      - generalize (f b). intro y. clearbody k. field. auto. }
    set (z := A / ((1 + 1) * k)) in *. clearbody z. clear - VG BU. qclra.
  - assert (IW : In w ws) by (destruct ws; [congruence|]; cbn [epochs] in H; left; apply H). assert (Q := B2 w IW). clear - VG Q. qclra.
Qed.
End abs.
