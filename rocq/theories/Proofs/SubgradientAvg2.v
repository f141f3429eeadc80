(** The averaged weights of SubgradientSSVM converge. *)
From Coq Require Import ZArith Permutation.
From Verif Require Import Model.Subgradient Proofs.Arrays Proofs.LearnerProofs Proofs.SubgradientProofs Proofs.SubgradientProofs2
  Spec.SubgradientRateSpec Proofs.SubgradientRate Proofs.SubgradientRate2 Proofs.SubgradientRate3 Proofs.SubgradientRate4 Proofs.SubgradientRate5 Proofs.SubgradientRate6 Proofs.FWRate5 Proofs.SubgradientAvg.

(** ** strongly convex functions *)
Section convex.
Context (d : nat) (G B : Qc) (m : nat) (f : list Qc -> Qc).
Hypothesis HG : 0 <= G.
Hypothesis Hm : (0 < m)%nat.
Lemma epochs_snoc l w1 w2 : forall ws s w, epochs d G B m f s w ws w1 -> length l = m -> descent d G B (s + ofN (length ws) * ofN m) w1 l w2 ->
  Forall (fun p => sloped d G B (fst p)) l -> (forall v, length v = d -> vals l v = ofN m * f v) -> epochs d G B m f s w (ws ++ [w1]) w2.
Proof.
  induction ws as [|x ws IH]; intros s w H HL HD HF HV; cbn [epochs app length] in *.
  - subst w1. split; [reflexivity|]. exists l, w2. rewrite ofN_0 in HD. replace (s + 0 * ofN m) with s in HD by ring. auto.
  - destruct H as [-> [l0 [w3 [A1 [A2 [A3 [A4 A5]]]]]]]. split; [reflexivity|]. exists l0, w3. split; [exact A1|]. split; [exact A2|]. split; [exact A3|]. split; [exact A4|].
    apply IH; auto. rewrite ofN_S in HD. replace (s + ofN m + ofN (length ws) * ofN m) with (s + (1 + ofN (length ws)) * ofN m) by ring. exact HD.
Qed.
Lemma epochs_sloped s w ws w' : epochs d G B m f s w ws w' -> ws <> [] -> sloped d G B f.
Proof.
  intros H NE. destruct ws as [|x ws]; [congruence|]. cbn [epochs] in H. destruct H as [_ [l [w1 [HL [_ [HF [HV _]]]]]]]. intros v Hv.
  exact (mean_slope d G B HG m f Hm l v HL HF Hv HV).
Qed.
Lemma close_minimal w u e : sloped d G B f -> inball d B w -> inball d B u -> (forall v, length v = d -> f w <= f v + e) -> (forall v, length v = d -> f u <= f v + e) ->
  normsq (vsub u w) <= ofN 8 * e.
Proof.
  intros HS [Lw Nw] [Lu Nu] Mw Mu. assert (HL : length w = length u) by congruence. set (h := half w u).
  assert (Lh : length h = d) by (apply half_length; assumption).
  assert (HN := half_norm w u HL). fold h in HN. assert (D0 := normsq_nonneg (vsub w u)).
  assert (E : normsq (vsub u w) = normsq (vsub w u)) by (rewrite !normsq_vsub by congruence; rewrite (dot_comm u w); ring). rewrite E. clear E.
  destruct (HS h) as [g [Lg [_ H]]].
  { split; [exact Lh|]. rewrite HN. set (a := normsq w) in *. set (b := normsq u) in *. set (D := normsq (vsub w u)) in *. clearbody a b D. clear - Nw Nu D0.
    assert (P : 0 <= D / ((1 + 1) * (1 + 1))) by (apply Qcmult_nonneg; [exact D0|discriminate]). set (q := D / _) in *. clearbody q.
    assert (E : (a + b) / (1 + 1) = a / (1 + 1) + b / (1 + 1)) by (field; discriminate). rewrite E. assert (Ea := half_sq a). assert (Eb := half_sq b). set (a2 := a / (1 + 1)) in *. set (b2 := b / (1 + 1)) in *. clearbody a2 b2. clear E. qclra. }
  assert (H1 := H w Lw). assert (H2 := H u Lu). clear H. specialize (Mw h Lh). specialize (Mu h Lh).
  assert (Eg : dot g (vsub w h) + dot g (vsub u h) = 0).
  { rewrite !dot_vsub_r by congruence. rewrite !(dot_comm g). unfold h. rewrite half_dot by exact HL. set (a := dot w g). set (b := dot u g). clearbody a b. field. discriminate. }
  assert (N1 : normsq (vsub w h) = normsq (vsub w u) / ((1 + 1) * (1 + 1))).
  { rewrite !normsq_vsub by congruence. rewrite (dot_comm w h). unfold h. rewrite !half_dot by exact HL. rewrite !(dot_comm _ (half w u)), !half_dot by exact HL. rewrite (dot_comm u w). set (a := dot w w). set (b := dot u u). set (c := dot w u). clearbody a b c. field. split; discriminate. }
  assert (N2 : normsq (vsub u h) = normsq (vsub w u) / ((1 + 1) * (1 + 1))).
  { rewrite !normsq_vsub by congruence. rewrite (dot_comm u h). unfold h. rewrite !half_dot by exact HL. rewrite !(dot_comm _ (half w u)), !half_dot by exact HL. rewrite (dot_comm u w). set (a := dot w w). set (b := dot u u). set (c := dot w u). clearbody a b c. field. split; discriminate. }
  rewrite N1 in H1. rewrite N2 in H2. replace (ofN 8) with (1 + 1 + (1 + 1) + (1 + 1) + (1 + 1)) by (apply Qc_is_canon; vm_compute; reflexivity).
  assert (ED : normsq (vsub w u) = (1 + 1) * (1 + 1) * (normsq (vsub w u) / ((1 + 1) * (1 + 1)))) by (field; repeat split; discriminate). rewrite ED.
  set (q := normsq (vsub w u) / ((1 + 1) * (1 + 1))) in *. set (x := dot g (vsub w h)) in *. set (y := dot g (vsub u h)) in *. set (fw := f w) in *. set (fu := f u) in *. set (fh := f h) in *. clearbody q x y fw fu fh. clear - H1 H2 Mw Mu Eg.
  replace ((1 + 1) * (1 + 1) * q) with (q + q + (q + q)) by ring. replace ((1 + 1 + (1 + 1) + (1 + 1) + (1 + 1)) * e) with (e + e + (e + e) + (e + e + (e + e))) by ring. qclra.
Qed.
End convex.

Section loop.
Context {X Y : Type} (T : task X Y) (d : nat) (prm : sg_params) (bm : bmodel X Y) (n : nat) (R : Qc) (m : nat) (f : list Qc -> Qc) (shuf : nat -> list (X * Y) -> list (X * Y))
  (allowed : list (X * Y) -> Prop).
Notation K := (sg_C prm * ofN n).
Notation BB := (K * K * R).
Notation GG := ((1 + 1 + 1 + 1) * (K * K * R)).
Notation total_at t := (total (avg_weight (sg_avg prm)) t).
Hypothesis HT : 1 <= sg_t0 prm.
Hypothesis HR : 0 <= R.
Hypothesis Hm : (0 < m)%nat.
Hypothesis HA : sg_avg prm <> AvgNone.
Hypothesis HSh : forall it S, allowed S -> allowed (shuf it S).
Hypothesis HOb : forall S w, allowed S -> length w = d -> exists o, sg_objective prm bm S w = Ok o.
Hypothesis HEp : epoch_ok T d prm bm n R m f allowed.
Hypothesis HBr : sg_break prm = false \/ (forall S st st' pos, sg_epoch prm bm K S st = Ok (st', pos) -> pos <> 0%Z).

Lemma loop_keeps (I : nat -> sg_state -> Prop) :
  (forall j st, I j st -> keeps d prm n R st) ->
  (forall j S st st' pos, allowed S -> I j st -> sg_epoch prm bm K S st = Ok (st', pos) -> I (Datatypes.S j) st') ->
  forall k j it S st c, allowed S -> I j st -> exists st' c' S', sg_loop prm bm K shuf k it S st c = Ok (st', c', S') /\ allowed S' /\ I (j + k)%nat st'.
Proof.
  intros HI HS. induction k as [|k IH]; intros j it S st c HAl HJ; cbn [sg_loop].
  - exists st, c, S. rewrite Nat.add_0_r. auto.
  - assert (HAl' := HSh it S HAl). destruct (HEp (shuf it S) st HAl' (HI j st HJ)) as [st1 [pos [Bs [kk [E1 _]]]]]. rewrite E1. cbn [bind fst snd].
    assert (HJ1 := HS j (shuf it S) st st1 pos HAl' HJ E1). assert (HK1 := HI _ _ HJ1).
    assert (EB : ((pos =? 0)%Z && sg_break prm)%bool = false).
    { destruct HBr as [E|E]; [rewrite E; apply Bool.andb_false_r|]. apply E in E1. apply Z.eqb_neq in E1. rewrite E1. reflexivity. }
    rewrite EB. destruct (HOb (shuf it S) (sg_self st1) HAl') as [o EO]; [apply HK1|]. rewrite EO. cbn [bind].
    destruct (IH (Datatypes.S j) (Datatypes.S it) (shuf it S) st1 (c ++ [o]) HAl' HJ1) as [st' [c' [S' [F1 [F2 F3]]]]]. exists st', c', S'. split; [exact F1|]. split; [exact F2|].
    replace (j + Datatypes.S k)%nat with (Datatypes.S j + k)%nat by lia. exact F3.
Qed.

Context (t1 : nat) (w1 : list Qc) (e : Qc) (N : nat).
Notation s1 := (ofN t1 + sg_t0 prm).
Hypothesis HN : (0 < N)%nat.
Hypothesis HW1 : inball d BB w1.
Hypothesis HConv : forall ws w', (N <= length ws)%nat -> epochs d GG BB m f s1 w1 ws w' -> forall u, length u = d -> f w' <= f u + e.
Hypothesis HFar : forall j, (N <= j)%nat -> (1 + 1) * ((ofN m / (s1 + ofN j * ofN m)) * (ofN m / (s1 + ofN j * ofN m)) * GG) <= e.
Notation delta := (ofN 17 * e).

Definition settled (t : nat) (self : list Qc) : Prop :=
  exists u, inball d BB u /\ (forall v, length v = d -> f u <= f v + e) /\
    total_at t * normsq (vsub self u) + total_at (t1 + N * m) * delta <= total_at (t1 + N * m) * GG + total_at t * delta.
Definition follows (j : nat) (st : sg_state) : Prop :=
  keeps d prm n R st /\ normsq (sg_self st) <= BB /\ sg_t st = (t1 + j * m)%nat /\
  exists ws, length ws = j /\ epochs d GG BB m f s1 w1 ws (sg_w st) /\ ((N <= j)%nat -> settled (sg_t st) (sg_self st)).
Lemma s1_ge : 1 <= s1.
Proof. assert (P := ofN_nonneg t1). set (x := ofN t1) in *. clearbody x. clear - P HT. qclra. Qed.
Lemma GG_diam v v' : inball d BB v -> inball d BB v' -> normsq (vsub v v') <= GG.
Proof. apply (diameter d GG BB). ring. Qed.
Lemma settled_start st : keeps d prm n R st -> normsq (sg_self st) <= BB -> sg_t st = (t1 + N * m)%nat -> (forall v, length v = d -> f (sg_w st) <= f v + e) -> settled (sg_t st) (sg_self st).
Proof.
  intros HK HS Et Hmin. exists (sg_w st). assert (IW : inball d BB (sg_w st)) by (split; apply HK). split; [exact IW|]. split; [exact Hmin|]. rewrite <- Et.
  assert (D := GG_diam (sg_self st) (sg_w st) (conj (proj1 (proj2 (proj1 HK))) HS) IW). assert (P := total_nonneg (sg_avg prm) (sg_t st)).
  apply Qcplus_le_compat; [|apply Qcle_refl]. rewrite !(Qcmult_comm (total_at _)). apply Qcmult_le_compat_r; [exact D|exact P].
Qed.
Lemma follows_step j S st st' pos : allowed S -> follows j st -> sg_epoch prm bm K S st = Ok (st', pos) -> follows (Datatypes.S j) st'.
Proof.
  intros HAl [HK [HS [Et [ws [Lws [HE Hset]]]]]] E. destruct (HEp S st HAl HK) as [st2 [pos2 [Bs [kk [E1 [E2 [E3 [E4 E5]]]]]]]]. rewrite E in E1. assert (st2 = st') by congruence. subst st2. clear E1.
  destruct (walk_descent T d prm (bm_s bm) n R kk Bs st st' HK E3 E2) as [HK1 [ET [l [L1 [L2 L3]]]]].
  assert (LL : length l = m) by (rewrite <- E4, <- (map_length fst l), L1, map_length; reflexivity). rewrite E4 in ET.
  assert (LV : forall v, length v = d -> vals l v = ofN m * f v) by (intros v Hv; rewrite (vals_map l _ v L1); apply E5; exact Hv).
  assert (Es : ofN (sg_t st) + sg_t0 prm = s1 + ofN (length ws) * ofN m) by (rewrite Et, Lws, ofN_plus, ofN_mult; ring).
  rewrite Es in L2. assert (HE' := epochs_snoc d GG BB m f l (sg_w st) (sg_w st') ws s1 w1 HE LL L2 L3 LV).
  assert (HS' := walk_ball T d prm n R HA kk Bs st st' HK HS E2).
  assert (Ht' : sg_t st' = (t1 + Datatypes.S j * m)%nat) by (rewrite ET, Et; lia).
  assert (Lws' : length (ws ++ [sg_w st]) = Datatypes.S j) by (rewrite app_length; cbn; lia).
  split; [exact HK1|]. split; [exact HS'|]. split; [exact Ht'|]. exists (ws ++ [sg_w st]). split; [exact Lws'|]. split; [exact HE'|].
  intro HNj. destruct (Nat.eq_dec N (Datatypes.S j)) as [EN|NEN].
  { apply settled_start; [exact HK1|exact HS'|rewrite EN; exact Ht'|]. apply (HConv _ _ ltac:(rewrite Lws'; exact HNj) HE'). }
  assert (HNj' : (N <= j)%nat) by lia. destruct (Hset HNj') as [u [Iu [Mu HD]]]. exists u. split; [exact Iu|]. split; [exact Mu|].
  assert (SL := epochs_sloped d GG BB m f (GG_pos prm n R HR) Hm s1 w1 ws (sg_w st) HE ltac:(intro Q; subst ws; cbn in Lws; lia)).
  assert (IW : inball d BB (sg_w st)) by (split; apply HK).
  assert (CL := close_minimal d GG BB f (sg_w st) u e SL IW Iu (HConv ws (sg_w st) ltac:(lia) HE) Mu).
  assert (SJ : 1 <= s1 + ofN j * ofN m). { assert (A := s1_ge). assert (Q : 0 <= ofN j * ofN m) by (apply Qcmult_nonneg; apply ofN_nonneg). set (x := ofN j * ofN m) in *. set (y := s1) in *. clearbody x y. clear - A Q. qclra. }
  assert (TR := walk_track T d prm n R HR HA kk u (sg_w st) (s1 + ofN j * ofN m) delta SJ (proj1 Iu) (proj1 IW) Bs 0 st st' HK).
  specialize (TR ltac:(rewrite Es, Lws; apply Qcle_refl)). rewrite E4, Nat.add_0_l in TR.
  assert (A1 : normsq (vsub (sg_w st) (sg_w st)) <= ofN 0 / (s1 + ofN j * ofN m) * (ofN 0 / (s1 + ofN j * ofN m)) * GG).
  { match goal with |- _ <= ?b => replace b with 0 by (rewrite ofN_0; unfold Qcdiv; ring) end. rewrite normsq_vsub by reflexivity. match goal with |- ?a <= _ => replace a with 0 by ring end. apply Qcle_refl. }
  specialize (TR A1). clear A1. assert (F := HFar j HNj').
  assert (A2 : ofN m / (s1 + ofN j * ofN m) * (ofN m / (s1 + ofN j * ofN m)) * GG + ofN m / (s1 + ofN j * ofN m) * (ofN m / (s1 + ofN j * ofN m)) * GG + (normsq (vsub u (sg_w st)) + normsq (vsub u (sg_w st))) <= delta).
  { set (x := ofN m / (s1 + ofN j * ofN m) * (ofN m / (s1 + ofN j * ofN m)) * GG) in *. set (y := normsq (vsub u (sg_w st))) in *. clearbody x y. replace ((1 + 1) * x) with (x + x) in F by ring.
    replace (ofN 17 * e) with (e + (ofN 8 * e + ofN 8 * e)). { set (z := ofN 8 * e) in *. clearbody z. clear - F CL. qclra. }
    replace (ofN 17) with (1 + ofN 8 + ofN 8) by (apply Qc_is_canon; vm_compute; reflexivity). ring. }
  specialize (TR A2 E2). clear - TR HD.
  set (x1 := total_at (sg_t st') * _) in *. set (x2 := total_at (sg_t st) * delta) in *. set (x3 := total_at (sg_t st) * _) in *. set (x4 := total_at (sg_t st') * delta) in *. set (x5 := total_at (t1 + N * m) * GG) in *. set (x6 := total_at (t1 + N * m) * delta) in *.
  clearbody x1 x2 x3 x4 x5 x6. qclra.
Qed.
End loop.
