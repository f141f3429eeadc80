(** inference_ogm hands the negated potentials to OpenGM; broadcasting in the typed continuous loss. *)
From Coq Require Import String.
From Verif Require Import Model.Inference Model.Typed Spec.Energy Spec.SolverSpec Spec.GraphSpec Proofs.Arrays Proofs.EnergyProofs Proofs.LossProofs Proofs.GraphCRFProofs
  Proofs.MaxProdProofs Proofs.InferenceProofs Proofs.LPProofs2.
Open Scope Qc_scope.

Lemma score_neg n edges U U' P P' f : graph_edges n edges ->
  (forall i s, U' i s = - U i s) -> (forall e s t, (e < length edges)%nat -> P' e s t = - P e s t) ->
  score n edges U' P' f = - score n edges U P f.
Proof.
  intros _ HU HP. unfold score.
  assert (N : forall m g h, (forall i, (i < m)%nat -> g i = - h i) -> sumn m g = - sumn m h).
  { intros m g h H. rewrite (sumn_ext m g (fun i => (- (1)) * h i)) by (intros i Hi; rewrite H by exact Hi; ring). rewrite sumn_mult_l. ring. }
  rewrite (N n _ (fun i => U i (f i))) by (intros; apply HU).
  rewrite (N (length edges) _ (fun e => P e (f (fst (nth e edges (0, 0)%nat))) (f (snd (nth e edges (0, 0)%nat))))) by (intros; apply HP; assumption). ring.
Qed.
Lemma ogm_energy b solve U p edges n k alg init : b_ogm b = Some solve -> mat_ok U -> mrows U = n -> mcols U = k -> pw_shape p (length edges) k ->
  graph_edges n edges -> In alg ogm_algs ->
  (forall V q, mat_ok V -> mrows V = n -> mcols V = k -> length q = length edges ->
     exists y, solve alg init V q edges = Ok y /\ labelling n k y /\
       forall z, labelling n k z -> score n edges (mget V) (fun e => get2 (nth e q [])) (lab y) <= score n edges (mget V) (fun e => get2 (nth e q [])) (lab z)) ->
  exists y, inference_ogm b U p edges alg init = Ok (y, - score n edges (mget U) (pw_table p) (lab y)) /\
    maximiser n k edges (mget U) (pw_table p) y.
Proof.
  intros Hb HU Hr Hc Hp G Ha HS. unfold inference_ogm. rewrite Hb. cbn [imported bind].
  destruct (validate_ok U p edges k Hc Hp) as (pws & E & L & T). rewrite E. cbn [bind].
  replace (mem alg ogm_algs) with true by (cbn in Ha; repeat (destruct Ha as [<-|Ha]; [reflexivity|]); destruct Ha). cbn [ensure bind].
  set (neg := map (map (map Qcopp)) pws). assert (LN : length neg = length edges) by (unfold neg; rewrite map_length; exact L).
  assert (SN : forall f, score n edges (mget (mat_neg U)) (fun e => get2 (nth e neg [])) f = - score n edges (mget U) (pw_table p) f).
  { intro f. apply score_neg; [exact G|intros i s; unfold mget, mat_neg; apply get2_neg|]. intros e s t He. unfold neg.
    change (@nil (list Qc)) with (map (map Qcopp) []). rewrite map_nth, get2_neg, (T e He). destruct p; reflexivity. }
  destruct (HS (mat_neg U) neg (mat_neg_ok _ HU) Hr Hc LN) as (y & EY & HY & M). rewrite EY. cbn [bind].
  rewrite (proj2 (compute_energy_correct (mat_neg U) (Mat 0 0 []) neg edges y n k Hr Hc G HY) LN). cbn [bind].
  rewrite SN. exists y. split; [reflexivity|]. split; [exact HY|]. intros z Hz. specialize (M z Hz). rewrite !SN in M. qclra.
Qed.
Lemma ogm_dispatch b solve U p edges n k alg kw : b_ogm b = Some solve -> mat_ok U -> mrows U = n -> mcols U = k -> pw_shape p (length edges) k ->
  graph_edges n edges -> In alg ogm_algs ->
  (forall init V q, mat_ok V -> mrows V = n -> mcols V = k -> length q = length edges ->
     exists y, solve alg init V q edges = Ok y /\ labelling n k y /\
       forall z, labelling n k z -> score n edges (mget V) (fun e => get2 (nth e q [])) (lab y) <= score n edges (mget V) (fun e => get2 (nth e q [])) (lab z)) ->
  kw = [("alg"%string, VStr alg)] \/ (alg = "dd"%string /\ kw = []) ->
  forall re, exists y, inference_dispatch b (Single U p edges) (Name "ogm") re kw =
      Ok (RLabels y, if re then Some (- score n edges (mget U) (pw_table p) (lab y)) else None) /\
    maximiser n k edges (mget U) (pw_table p) y.
Proof.
  intros Hb HU Hr Hc Hp G Ha HS HK re.
  destruct (ogm_energy b solve U p edges n k alg VNone Hb HU Hr Hc Hp G Ha (HS VNone)) as (y & E & M).
  exists y. split; [|exact M]. unfold inference_dispatch, dispatch_name. cbn [String.eqb Ascii.eqb Bool.eqb].
  destruct HK as [->|[-> ->]]; cbn; rewrite Hb; cbn; rewrite E; reflexivity.
Qed.
(** one row of marginals is used for all labels *)
Lemma continuous_one_row g (m : mat) y0 ys cws : mrows m = 1%nat -> (0 <= y0 < Z.of_nat (mcols m))%Z -> ys <> [] ->
  mapM (zindex (ty_class_weight g)) (y0 :: ys) = Ok cws ->
  ty_continuous_loss g (y0 :: ys) [m] = Ok (lsum cws * (1 - mget m 0 (Z.to_nat y0))).
Proof.
  intros Hr Hy Hn E. unfold ty_continuous_loss. rewrite E. cbn [length Nat.eqb negb ensure bind closs_loop]. rewrite Hr. cbn [firstn zminus map length seq combine mapM bind fst snd].
  unfold wrap. replace (y0 - Z.of_nat 0)%Z with y0 by lia. replace (0 <=? y0)%Z with true by (symmetry; apply Z.leb_le; lia).
  replace (y0 <? Z.of_nat (mcols m))%Z with true by (symmetry; apply Z.ltb_lt; lia). cbn [bind app].
  assert (L := mapM_length _ _ _ E). cbn [length] in L. unfold broadcast_dot. cbn [length].
  destruct ys as [|y1 ys]; [contradiction|]. destruct cws as [|c0 [|c1 cws]]; cbn [length] in L; try lia. reflexivity.
Qed.
Lemma continuous_no_rows g (m : mat) y0 c : mrows m = 0%nat -> zindex (ty_class_weight g) y0 = Ok c ->
  ty_continuous_loss g [y0] [m] = Ok 0 /\
  forall y1 ys cws, mapM (zindex (ty_class_weight g)) (y0 :: y1 :: ys) = Ok cws -> ty_continuous_loss g (y0 :: y1 :: ys) [m] = Err ValueError.
Proof.
  intros Hr E. unfold ty_continuous_loss. split.
  - cbn [mapM]. rewrite E. cbn [length Nat.eqb negb ensure bind closs_loop]. rewrite Hr. cbn [firstn zminus map length seq combine mapM bind app]. unfold broadcast_dot. cbn [length Nat.eqb]. f_equal. apply Qcmult_0_r.
  - intros y1 ys cws E'. assert (L := mapM_length _ _ _ E'). rewrite E'. cbn [length Nat.eqb negb ensure bind closs_loop]. rewrite Hr. cbn [firstn zminus map length seq combine mapM bind app].
    destruct cws as [|c0 [|c1 cws]]; cbn [length] in L; try lia. reflexivity.
Qed.
(** a minimiser of energies on chains *)
Definition p4_ogm (alg : string) (init : value) (V : mat) (q : list (list (list Qc))) (edges : list (nat * nat)) : res (list nat) :=
  inference_max_product (mat_neg V) (Pw3 (length edges) (mcols V) (mcols V) (map (map (map Qcopp)) q)) edges 30 (Q2Qc (1 # 2)) default_tol.
Lemma p4_ogm_ok n k alg init V q : (0 < n)%nat -> (0 < k)%nat -> mat_ok V -> mrows V = n -> mcols V = k -> length q = length (chain_edges n) ->
  exists y, p4_ogm alg init V q (chain_edges n) = Ok y /\ labelling n k y /\
    forall z, labelling n k z -> score n (chain_edges n) (mget V) (fun e => get2 (nth e q [])) (lab y) <= score n (chain_edges n) (mget V) (fun e => get2 (nth e q [])) (lab z).
Proof.
  intros Hn Hk HV Hr Hc HL. assert (LE : length (chain_edges n) = (n - 1)%nat) by (unfold chain_edges; rewrite map_length, seq_length; reflexivity).
  unfold p4_ogm. rewrite Hc.
  destruct (max_product_chain n k (mat_neg V) (Pw3 (length (chain_edges n)) k k (map (map (map Qcopp)) q)) 30 (Q2Qc (1 # 2)) default_tol) as (y & E & HY & M).
  1-5: solve [apply mat_neg_ok, HV|exact Hr|exact Hc|exact Hn|exact Hk].
  { cbn. rewrite map_length. repeat split; lia. }
  exists y. split; [exact E|]. split; [exact HY|]. intros z Hz. specialize (M z Hz).
  assert (SN : forall f, score n (chain_edges n) (mget (mat_neg V)) (pw_table (Pw3 (length (chain_edges n)) k k (map (map (map Qcopp)) q))) f =
                 - score n (chain_edges n) (mget V) (fun e => get2 (nth e q [])) f).
  { intro f. apply score_neg; [apply ViterbiProofs.chain_edges_ok|intros; unfold mget, mat_neg; apply get2_neg|]. intros e s t He. cbn [pw_table].
    change (@nil (list Qc)) with (map (map Qcopp) []) at 1. rewrite map_nth. apply get2_neg. }
  rewrite !SN in M. qclra.
Qed.
