(** Mistake bounds and convergence of the structured perceptron. *)
From Coq Require Import ZArith.
From Verif Require Import Proofs.Arrays Proofs.LossProofs Proofs.SubgradientProofs.
From Verif Require Export Proofs.PerceptronProofs2.

(** linear arithmetic with products as atoms *)
Ltac qatoms := repeat match goal with |- context [Qcmult ?a ?b] => let z := fresh "z" in set (z := Qcmult a b); clearbody z end.
Lemma norm_add a b : length a = length b -> normsq (vadd a b) = normsq a + (1 + 1) * dot a b + normsq b.
Proof.
  intros H. unfold normsq. rewrite dot_vadd_l by exact H. rewrite !dot_vadd_r by exact H. rewrite (dot_comm b a). ring.
Qed.
Lemma norm_scale k a : normsq (vscale k a) = k * k * normsq a.
Proof. unfold normsq. rewrite dot_vscale_l, dot_vscale_r. ring. Qed.
(** adding a vector of length at most r to one of length at most k r *)
Lemma norm_sum k a b R2 : length a = length b -> normsq a <= ofN k * ofN k * R2 -> normsq b <= R2 ->
  normsq (vadd a b) <= ofN (S k) * ofN (S k) * R2.
Proof.
  intros HL HA HB. rewrite norm_add by exact HL.
  assert (HD : dot a b <= ofN k * R2).
  { destruct k as [|k].
    - rewrite ofN_0 in *. replace (0 * 0 * R2) with 0 in HA by ring. pose proof (cauchy_schwarz a b HL) as CS. pose proof (normsq_nonneg a). pose proof (normsq_nonneg b).
      assert (Z : normsq a = 0) by (apply Qcle_antisym; assumption). rewrite Z in CS.
      assert (SQ : dot a b * dot a b = 0) by (apply Qcle_antisym; [rewrite Qcmult_0_l in CS; exact CS|apply Qc_sq_nonneg]).
      assert (DZ : dot a b = 0) by (apply Qcmult_integral in SQ; destruct SQ; assumption). rewrite DZ. replace (0 * R2) with 0 by ring. apply Qcle_refl.
    - pose proof (normsq_nonneg (vsub a (vscale (ofN (S k)) b))) as P.
      assert (EQ : normsq (vsub a (vscale (ofN (S k)) b)) = normsq a - (1 + 1) * (ofN (S k) * dot a b) + ofN (S k) * ofN (S k) * normsq b).
      { unfold normsq. rewrite dot_vsub_l, !dot_vsub_r, !dot_vscale_l, !dot_vscale_r, (dot_comm b a) by (rewrite ?vscale_length; exact HL). ring. }
      rewrite EQ in P. clear EQ. pose proof (ofN_pos (S k) (Nat.lt_0_succ k)) as KP. set (K := ofN (S k)) in *. clearbody K.
      assert (KB : K * K * normsq b <= K * K * R2).
      { rewrite (Qcmult_comm (K * K) (normsq b)), (Qcmult_comm (K * K) R2). apply Qcmult_le_compat_r; [exact HB|apply Qc_sq_nonneg]. }
      apply Qcmult_lt_0_le_reg_r with K; [exact KP|]. replace (dot a b * K) with (K * dot a b) by ring. replace (K * R2 * K) with (K * K * R2) by ring.
      set (x := K * dot a b) in *. clearbody x. replace ((1 + 1) * x) with (x + x) in P by ring.
      set (y := K * K * normsq b) in *. set (z := K * K * R2) in *. clearbody y z. clear -HA P KB. revert HA P KB. qatoms. intros. qclra. }
  rewrite (ofN_S k). set (K := ofN k) in *. clearbody K. replace ((1 + 1) * dot a b) with (dot a b + dot a b) by ring.
  replace ((1 + K) * (1 + K) * R2) with (K * K * R2 + (K * R2 + K * R2) + R2) by ring.
  set (y := K * R2) in *. set (z := K * K * R2) in *. clearbody y z. clear -HA HB HD. revert HA HB HD. qatoms. intros. qclra.
Qed.

Section Bound.
Context {X Y : Type} (m : smodel X Y) (T : task X Y) (d : nat) (S : list (X * Y)).
Hypothesis HC : computes m T d S.
Hypothesis HX : infers_exactly m T d S.

Lemma exactly_infers : infers m T d S.
Proof. clear HC. intros p w yh Hp Hw E. destruct (HX p w Hp Hw) as [y' [A [B _]]]. rewrite A in E. injection E as <-. exact B. Qed.

(** what is known of one presentation *)
Lemma visit_facts batch lr w0 w v V : In (v_sample v) S -> length w0 = d -> length w = d -> presents m T batch lr w0 w (v :: V) ->
  length (v_diff T v) = d /\ length (v_after v) = d /\ t_label T (fst (v_sample v)) (v_pred v) /\ 0 <= v_loss T v /\
  dot (if batch then w0 else w) (v_diff T v) <= 0.
Proof.
  intros Hv H0 Hw [E [A1 [A2 _]]].
  assert (HW : length (if batch then w0 else w) = d) by (destruct batch; assumption).
  destruct (HX _ _ Hv HW) as [y' [B1 [B2 B3]]]. rewrite B1 in E. injection E as ->.
  destruct (HC _ Hv) as [C1 [_ C3]]. destruct (C3 _ C1) as [D1 _]. destruct (C3 _ B2) as [E1 [E2 _]].
  assert (LD : length (v_diff T v) = d) by (unfold v_diff; rewrite vsub_length; congruence).
  split; [exact LD|]. split.
  - destruct (Qceqb_spec (v_loss T v) 0) as [Z|Z]; [rewrite (A1 Z); exact Hw|]. rewrite (A2 Z). rewrite vadd_length; [exact Hw|]. rewrite vscale_length. congruence.
  - split; [exact B2|]. split; [exact E2|]. unfold v_diff. rewrite dot_vsub_r by congruence. pose proof (B3 _ C1). qclra.
Qed.
Lemma mistakes_cons v V : mistakes T (v :: V) = ((if Qceqb (v_loss T v) 0 then 0 else 1) + mistakes T V)%nat.
Proof. clear HC HX. unfold mistakes. cbn [filter]. destruct (Qceqb (v_loss T v) 0); reflexivity. Qed.

Section Sep.
Variables (u : list Qc) (g R2 : Qc).
Hypothesis HU : length u = d.
Hypothesis HS : Forall (separates T u g) S.
Hypothesis HR : Forall (wrong_within T R2) S.

Lemma visit_sep batch lr w0 w v V : In (v_sample v) S -> length w0 = d -> length w = d -> presents m T batch lr w0 w (v :: V) -> v_loss T v <> 0 ->
  g <= dot u (v_diff T v) /\ normsq (v_diff T v) <= R2.
Proof.
  intros Hv H0 Hw P Z. destruct (visit_facts _ _ _ _ _ _ Hv H0 Hw P) as [_ [_ [L _]]].
  split; [exact (proj1 (Forall_forall _ _) HS _ Hv _ L Z)|exact (proj1 (Forall_forall _ _) HR _ Hv _ L Z)].
Qed.

Lemma online_growth lr w0 : 0 <= lr -> length w0 = d -> forall V w, (forall v, In v V -> In (v_sample v) S) -> length w = d -> presents m T false lr w0 w V ->
  length (finish (w, V)) = d /\ dot u w + lr * (ofN (mistakes T V) * g) <= dot u (finish (w, V)) /\
  normsq (finish (w, V)) <= normsq w + lr * lr * (ofN (mistakes T V) * R2).
Proof.
  intros HL H0. induction V as [|v V IH]; intros w HV Hw P.
  - unfold finish, mistakes. cbn [snd fst map last filter length]. rewrite ofN_0. split; [exact Hw|]. split.
    + replace (dot u w + lr * (0 * g)) with (dot u w) by ring. apply Qcle_refl.
    + replace (normsq w + lr * lr * (0 * R2)) with (normsq w) by ring. apply Qcle_refl.
  - assert (Hv : In (v_sample v) S) by (apply HV; left; reflexivity).
    destruct (visit_facts _ _ _ _ _ _ Hv H0 Hw P) as [F1 [F2 [F3 [F4 F5]]]]. pose proof (visit_sep _ _ _ _ _ _ Hv H0 Hw P) as SP.
    destruct P as [_ [P2 [P3 P4]]]. destruct (IH (v_after v) (fun v' H => HV v' (or_intror H)) F2 P4) as [I1 [I2 I3]].
    assert (FE : finish (w, v :: V) = finish (v_after v, V)) by (unfold finish; cbn [fst snd map]; apply last_cons).
    rewrite FE, mistakes_cons. destruct (Qceqb_spec (v_loss T v) 0) as [Z|Z].
    + rewrite (P2 Z) in I1, I2, I3 |- *. cbn [Nat.add]. auto.
    + destruct (SP Z) as [S1 S2]. set (fn := finish (v_after v, V)) in *. clearbody fn. rewrite (P3 Z) in I2, I3. set (k := mistakes T V) in *. replace (1 + k)%nat with (Datatypes.S k) by lia. rewrite (ofN_S k).
      rewrite dot_vadd_r, dot_vscale_r in I2 by (rewrite vscale_length; congruence).
      rewrite norm_add, norm_scale, dot_vscale_r in I3 by (rewrite vscale_length; congruence).
      assert (G1 : lr * g <= lr * dot u (v_diff T v)) by (rewrite (Qcmult_comm lr g), (Qcmult_comm lr (dot u (v_diff T v))); apply Qcmult_le_compat_r; auto).
      assert (G2 : lr * lr * normsq (v_diff T v) <= lr * lr * R2) by (rewrite (Qcmult_comm (lr * lr) (normsq (v_diff T v))), (Qcmult_comm (lr * lr) R2); apply Qcmult_le_compat_r; [exact S2|apply Qc_sq_nonneg]).
      assert (G3 : lr * dot w (v_diff T v) <= 0).
      { replace 0 with (0 * lr) by ring. rewrite Qcmult_comm. apply Qcmult_le_compat_r; auto. }
      split; [exact I1|]. split.
      * replace (dot u w + lr * ((1 + ofN k) * g)) with (dot u w + lr * (ofN k * g) + lr * g) by ring. clear -I2 G1. revert I2 G1. qatoms. intros. qclra.
      * replace (normsq w + lr * lr * ((1 + ofN k) * R2)) with (normsq w + lr * lr * (ofN k * R2) + lr * lr * R2) by ring.
        replace ((1 + 1) * (lr * dot w (v_diff T v))) with (lr * dot w (v_diff T v) + lr * dot w (v_diff T v)) in I3 by ring. clear -I3 G2 G3. revert I3 G2 G3. qatoms. intros. qclra.
Qed.

Lemma batch_growth lr w0 : length w0 = d -> forall V w, (forall v, In v V -> In (v_sample v) S) -> length w = d -> presents m T true lr w0 w V ->
  exists D, length D = d /\ finish (w, V) = vadd w (vscale lr D) /\ dot w0 D <= 0 /\
    ofN (mistakes T V) * g <= dot u D /\ normsq D <= ofN (mistakes T V) * ofN (mistakes T V) * R2.
Proof.
  intros H0. induction V as [|v V IH]; intros w HV Hw P.
  - exists (vzero d). split; [apply vzero_length|]. split.
    + unfold finish. cbn [fst snd map last]. symmetry. apply vec_ext; [rewrite vadd_length; [reflexivity|rewrite vscale_length, vzero_length; exact Hw]|].
      intros i _. rewrite get1_vadd by (rewrite vscale_length, vzero_length; exact Hw). rewrite get1_vscale, get1_vzero. ring.
    + unfold mistakes, normsq. cbn [filter length]. rewrite ofN_0, !dot_vzero_r. replace (0 * g) with 0 by ring. replace (0 * 0 * R2) with 0 by ring.
      split; [apply Qcle_refl|]. split; apply Qcle_refl.
  - assert (Hv : In (v_sample v) S) by (apply HV; left; reflexivity).
    destruct (visit_facts _ _ _ _ _ _ Hv H0 Hw P) as [F1 [F2 [F3 [F4 F5]]]]. pose proof (visit_sep _ _ _ _ _ _ Hv H0 Hw P) as SP.
    destruct P as [_ [P2 [P3 P4]]]. destruct (IH (v_after v) (fun v' H => HV v' (or_intror H)) F2 P4) as [D [I1 [I2 [I3 [I4 I5]]]]].
    assert (FE : finish (w, v :: V) = finish (v_after v, V)) by (unfold finish; cbn [fst snd map]; apply last_cons).
    rewrite FE, mistakes_cons. destruct (Qceqb_spec (v_loss T v) 0) as [Z|Z].
    + rewrite (P2 Z) in I2 |- *. exists D. cbn [Nat.add]. auto.
    + destruct (SP Z) as [S1 S2]. rewrite (P3 Z) in I2. set (k := mistakes T V) in *. replace (1 + k)%nat with (Datatypes.S k) by lia.
      exists (vadd D (v_diff T v)). split; [rewrite vadd_length; congruence|]. split.
      * rewrite (P3 Z), I2. apply vec_ext.
        -- rewrite !vadd_length; rewrite ?vadd_length; rewrite ?vscale_length, ?vadd_length; congruence.
        -- intros i _. rewrite !get1_vadd, !get1_vscale, !get1_vadd; rewrite ?vadd_length; rewrite ?vscale_length; try ring; try congruence.
           rewrite vadd_length; congruence.
      * split; [rewrite dot_vadd_r by congruence; clear -I3 F5; qclra|]. split.
        -- rewrite dot_vadd_r by congruence. rewrite (ofN_S k). replace ((1 + ofN k) * g) with (ofN k * g + g) by ring. clear -I4 S1. revert I4 S1. qatoms. intros. qclra.
        -- apply norm_sum; [congruence|exact I5|exact S2].
Qed.

Lemma epoch_growth batch lr w V : 0 <= lr -> (forall v, In v V -> In (v_sample v) S) -> length w = d -> presents m T batch lr w w V ->
  length (finish (w, V)) = d /\ dot u w + lr * ofN (mistakes T V) * g <= dot u (finish (w, V)) /\
  normsq (finish (w, V)) <= normsq w + lr * lr * mistake_cost batch (mistakes T V) * R2.
Proof.
  intros HL HV Hw P. destruct batch.
  - destruct (batch_growth lr w Hw V w HV Hw P) as [D [D1 [D2 [D3 [D4 D5]]]]]. rewrite D2. unfold mistake_cost.
    split; [rewrite vadd_length; [exact Hw|rewrite vscale_length; congruence]|]. split.
    + rewrite dot_vadd_r, dot_vscale_r by (rewrite vscale_length; congruence).
      assert (G : lr * (ofN (mistakes T V) * g) <= lr * dot u D) by (rewrite (Qcmult_comm lr (ofN _ * g)), (Qcmult_comm lr (dot u D)); apply Qcmult_le_compat_r; auto).
      replace (lr * ofN (mistakes T V) * g) with (lr * (ofN (mistakes T V) * g)) by ring. clear -G. revert G. qatoms. intros. qclra.
    + rewrite norm_add, norm_scale, dot_vscale_r by (rewrite vscale_length; congruence).
      assert (G1 : lr * dot w D <= 0). { replace 0 with (0 * lr) by ring. rewrite Qcmult_comm. apply Qcmult_le_compat_r; auto. }
      assert (G2 : lr * lr * normsq D <= lr * lr * (ofN (mistakes T V) * ofN (mistakes T V) * R2)).
      { rewrite (Qcmult_comm (lr * lr) (normsq D)), (Qcmult_comm (lr * lr) (_ * R2)). apply Qcmult_le_compat_r; [exact D5|apply Qc_sq_nonneg]. }
      replace (lr * lr * (ofN (mistakes T V) * ofN (mistakes T V)) * R2) with (lr * lr * (ofN (mistakes T V) * ofN (mistakes T V) * R2)) by ring.
      replace ((1 + 1) * (lr * dot w D)) with (lr * dot w D + lr * dot w D) by ring. clear -G1 G2. revert G1 G2. qatoms. intros. qclra.
  - destruct (online_growth lr w HL Hw V w HV Hw P) as [A1 [A2 A3]]. unfold mistake_cost. split; [exact A1|]. split.
    + replace (lr * ofN (mistakes T V) * g) with (lr * (ofN (mistakes T V) * g)) by ring. exact A2.
    + replace (lr * lr * ofN (mistakes T V) * R2) with (lr * lr * (ofN (mistakes T V) * R2)) by ring. exact A3.
Qed.

Lemma run_growth prm : (forall it, 0 <= pc_lr prm it) -> forall Es it w, length w = d -> epochs prm m T S it w Es ->
  length (finish_all w Es) = d /\ dot u w + moved prm T it Es * g <= dot u (finish_all w Es) /\
  normsq (finish_all w Es) <= normsq w + spent prm T it Es * R2.
Proof.
  intros HL. induction Es as [|e Es IH]; intros it w Hw H.
  - unfold finish_all. cbn [map last moved spent]. split; [exact Hw|]. split; [replace (dot u w + 0 * g) with (dot u w) by ring|replace (normsq w + 0 * R2) with (normsq w) by ring]; apply Qcle_refl.
  - destruct H as [H1 [H2 [H3 H4]]]. destruct e as [w' V]. cbn [fst snd] in *. subst w'.
    assert (HV : forall v, In v V -> In (v_sample v) S) by (intros v Hv; rewrite <- H2; apply in_map; exact Hv).
    destruct (epoch_growth _ _ _ _ (HL it) HV Hw H3) as [A1 [A2 A3]]. destruct (IH _ _ A1 H4) as [B1 [B2 B3]].
    rewrite finish_all_cons. split; [exact B1|]. cbn [moved spent snd]. split.
    + replace ((pc_lr prm it * ofN (mistakes T V) + moved prm T (Datatypes.S it) Es) * g) with
        (pc_lr prm it * ofN (mistakes T V) * g + moved prm T (Datatypes.S it) Es * g) by ring. clear -A2 B2. revert A2 B2. qatoms. intros. qclra.
    + replace ((pc_lr prm it * pc_lr prm it * mistake_cost (pc_batch prm) (mistakes T V) + spent prm T (Datatypes.S it) Es) * R2) with
        (pc_lr prm it * pc_lr prm it * mistake_cost (pc_batch prm) (mistakes T V) * R2 + spent prm T (Datatypes.S it) Es * R2) by ring. clear -A3 B3. revert A3 B3. qatoms. intros. qclra.
Qed.
End Sep.
End Bound.

Lemma lr_nonneg prm it : 0 <= pc_t0 prm -> 0 <= pc_lr prm it.
Proof.
  intros H. pose proof (ofN_nonneg it) as N. assert (B : 0 <= ofN it + pc_t0 prm) by qclra.
  assert (P : forall k, 0 <= Qcpower (ofN it + pc_t0 prm) k).
  { induction k as [|k IH]; cbn [Qcpower]; [discriminate|]. apply Qcmult_nonneg; assumption. }
  unfold pc_lr. destruct (0 <=? pc_decay prm)%Z; [apply P|].
  set (v := Qcpower (ofN it + pc_t0 prm) (Z.to_nat (- pc_decay prm))). specialize (P (Z.to_nat (- pc_decay prm))). fold v in P. clearbody v.
  destruct (Qceqb_spec v 0) as [->|Z]; [discriminate|]. apply Qclt_le_weak. apply Qcinv_pos. destruct (Qcle_lt_or_eq _ _ P) as [L|L]; [exact L|]. symmetry in L. contradiction.
Qed.
Lemma moved_nonneg {X Y} prm (T : task X Y) : 0 <= pc_t0 prm -> forall Es it, 0 <= moved prm T it Es.
Proof.
  intros H. induction Es as [|e Es IH]; intros it; cbn [moved]; [discriminate|]. specialize (IH (S it)).
  pose proof (Qcmult_nonneg _ _ (lr_nonneg prm it H) (ofN_nonneg (mistakes T (snd e)))). qclra.
Qed.

Lemma rate_bound {X Y} (m : smodel X Y) (T : task X Y) d S prm u g R2 Es : computes m T d S -> infers_exactly m T d S ->
  0 <= pc_t0 prm -> length u = d -> 0 <= g -> Forall (separates T u g) S -> Forall (wrong_within T R2) S ->
  epochs prm m T S 0 (vzero d) Es ->
  (moved prm T 0 Es * g) * (moved prm T 0 Es * g) <= normsq u * (spent prm T 0 Es * R2).
Proof.
  intros HC HX H0 HU HG HS HR HE.
  destruct (run_growth m T d S HC HX u g R2 HU HS HR prm (fun it => lr_nonneg prm it H0) Es 0 (vzero d) (vzero_length d) HE) as [A1 [A2 A3]].
  set (w := finish_all (vzero d) Es) in *. rewrite dot_vzero_r in A2. unfold normsq in A3 at 2. rewrite dot_vzero_l in A3.
  pose proof (cauchy_schwarz u w) as CS. rewrite HU, A1 in CS. specialize (CS eq_refl).
  pose proof (moved_nonneg prm T H0 Es 0) as MN. set (A := moved prm T 0 Es) in *. set (B := spent prm T 0 Es * R2) in *. clearbody A B.
  assert (AG : 0 <= A * g) by (apply Qcmult_nonneg; assumption). set (x := A * g) in *. clearbody x.
  assert (L1 : x <= dot u w) by qclra. assert (L2 : normsq w <= B) by qclra.
  assert (L3 : x * x <= dot u w * dot u w).
  { apply Qcle_trans with (x * dot u w); [rewrite (Qcmult_comm x (dot u w)); apply Qcmult_le_compat_r; assumption|]. apply Qcmult_le_compat_r; [exact L1|]. qclra. }
  assert (L4 : normsq u * normsq w <= normsq u * B) by (rewrite (Qcmult_comm (normsq u) (normsq w)), (Qcmult_comm (normsq u) B); apply Qcmult_le_compat_r; [exact L2|apply normsq_nonneg]).
  apply Qcle_trans with (dot u w * dot u w); [exact L3|]. apply Qcle_trans with (normsq u * normsq w); assumption.
Qed.
