(** Examples for two labels, and the gap with three. *)
From Coq Require Import String.
From Verif Require Import Model.LP Model.Inference Model.CRF Model.Loss Spec.Energy Spec.SolverSpec Spec.LocalPolytope Spec.LPSpec
  Spec.GraphSpec Spec.LossSpec Spec.BinaryLPSpec Spec.DispatchSpec Spec.SingleTypeSpec
  Proofs.Arrays Proofs.EnergyProofs Proofs.LPProofs Proofs.LPProofs2 Proofs.ForestLP2 Proofs.BinaryLP Proofs.BinaryLP2 Proofs.BinaryLP3.
Open Scope Qc_scope.

Lemma point_solves U p edges n x y : mat_ok U -> mrows U = n -> mcols U = 2%nat -> (0 < n)%nat ->
  graph_edges n edges -> pw_ok p -> pw_shape p (length edges) 2 -> attractive (length edges) (pw_table p) ->
  length x = (n * 2 + length edges * (2 * 2))%nat -> local_polytope n 2 edges (var_mu 2 x) (var_nu n 2 x) ->
  maximiser n 2 edges (mget U) (pw_table p) y ->
  marginal_score n 2 edges (mget U) (pw_table p) (var_mu 2 x) (var_nu n 2 x) = score n edges (mget U) (pw_table p) (lab y) ->
  lp_solved (fun _ => Ok x) U p edges.
Proof.
  intros HU Hr Hc Hn G Hpo Hp A HL L Hy EQ.
  destruct (lp_problem_ok U p edges n 2 HU Hr Hc Hn ltac:(lia) G Hpo Hp) as (pws & pb & EV & EB & _ & FI & OB & _).
  exists pws, pb, x. rewrite Hc. split; [exact EV|]. split; [exact EB|]. split; [reflexivity|].
  assert (Fx : feasible pb x) by (apply FI; split; assumption). split; [exact Fx|].
  intros x' Fx'. rewrite (OB x Fx), (OB x' Fx'), EQ. apply FI in Fx'. destruct Fx' as [_ L'].
  assert (B := relaxation_bounded n edges (mget U) (pw_table p) G _ (proj2 Hy) _ _ A L').
  revert B. generalize (marginal_score n 2 edges (mget U) (pw_table p) (var_mu 2 x') (var_nu n 2 x')), (score n edges (mget U) (pw_table p) (lab y)).
  intros; qclra.
Qed.

Definition best_among (n k : nat) (edges : list (nat * nat)) (U : mat) (p : pairwise) (y : list nat) : bool :=
  forallb (fun z => Qcleb (score n edges (mget U) (pw_table p) (lab z)) (score n edges (mget U) (pw_table p) (lab y)))
    (Model.Exhaustive.product_range k n).
Lemma best_among_ok n k edges U p y : labelling n k y -> best_among n k edges U p y = true ->
  maximiser n k edges (mget U) (pw_table p) y.
Proof.
  intros L H. split; [exact L|]. intros z Hz. unfold best_among in H. rewrite forallb_forall in H.
  specialize (H z (proj2 (CRFProofs.product_range_in k n z) Hz)). destruct (Qcleb_spec (score n edges (mget U) (pw_table p) (lab z)) (score n edges (mget U) (pw_table p) (lab y))); [assumption|discriminate].
Qed.

(** a triangle whose edges reward agreement *)
Definition ex47_edges : list (nat * nat) := [(0, 1); (1, 2); (0, 2)]%nat.
Definition ex47_g : graph_crf := GraphCRF 2 1 false.
Definition ex47_x : graph_x := GraphX (Mat 3 1 [[1]; [- (1)]; [1 + 1]]) ex47_edges.
Definition ex47_w : list Qc := [0; 0; 1; 0; 1].
Definition ex47_U : mat := mtab 3 2 (fun _ _ => 0).
Definition ex47_P : mat := Mat 2 2 [[1; 0]; [0; 1]].
Definition ex47_half : Qc := Q2Qc (1 # 2).
(** every node undecided, every edge agreeing *)
Definition ex47_frac : list Qc :=
  [ex47_half; ex47_half; ex47_half; ex47_half; ex47_half; ex47_half;
   ex47_half; 0; 0; ex47_half; ex47_half; 0; 0; ex47_half; ex47_half; 0; 0; ex47_half].
Definition ex47_b (x : list Qc) : backends := Backends (fun _ => Ok x) None (fun z => z) None None.

Lemma ex47_attractive k : attractive k (pw_table (Pw2 ex47_P)).
Proof. intros e _. vm_compute. discriminate. Qed.
Lemma ex47_frac_in : local_polytope 3 2 ex47_edges (var_mu 2 ex47_frac) (var_nu 3 2 ex47_frac).
Proof.
  constructor.
  - intros [|[|[|]]] [|[|]] ? ?; try lia; vm_compute; discriminate.
  - intros [|[|[|]]] [|[|]] [|[|]] ? ? ?; simpl in *; try lia; vm_compute; discriminate.
  - intros [|[|[|]]] ?; try lia; apply Qc_is_canon; vm_compute; reflexivity.
  - intros [|[|[|]]] [|[|]] ? ?; simpl in *; try lia; apply Qc_is_canon; vm_compute; reflexivity.
  - intros [|[|[|]]] [|[|]] ? ?; simpl in *; try lia; apply Qc_is_canon; vm_compute; reflexivity.
Qed.
Lemma ex47_solved : lp_solved (fun _ => Ok ex47_frac) ex47_U (Pw2 ex47_P) ex47_edges.
Proof.
  apply (point_solves ex47_U (Pw2 ex47_P) ex47_edges 3 ex47_frac [0; 0; 0]%nat); try reflexivity; try lia.
  - apply mtab_ok.
  - repeat constructor.
  - repeat constructor.
  - repeat constructor.
  - apply ex47_attractive.
  - apply ex47_frac_in.
  - apply best_among_ok; [repeat constructor|]. vm_compute. reflexivity.
Qed.

(** three labels, agreement rewarded, node i may not take label i *)
Definition ex47_U3 : mat := mtab 3 3 (fun i s => if (i =? s)%nat then - (1 + 1) else 0).
Definition ex47_p3 : pairwise := Pw2 (Mat 3 3 [[1; 0; 0]; [0; 1; 0]; [0; 0; 1]]).
Definition ex47_mu3 (i s : nat) : Qc := if (i =? s)%nat then 0 else ex47_half.
(** the two ends agree on the label both may take, with probability one half *)
Definition ex47_nu3 (e s t : nat) : Qc :=
  let '(a, b) := nth e ex47_edges (0, 0)%nat in
  let c := (3 - a - b)%nat in
  if ((s =? c) && (t =? c))%bool%nat then ex47_half
  else if ((s =? b) && (t =? a))%bool%nat then ex47_half else 0.

Lemma ex47_three solve pws pb x relaxed :
  validate_params ex47_U3 ex47_p3 3 = Ok (3%nat, pws) ->
  lp_build (mat_neg ex47_U3) ex47_edges (map (map (map Qcopp)) pws) = Ok pb ->
  solve pb = Ok x -> optimal pb x ->
  exists a e, inference_lp solve ex47_U3 ex47_p3 ex47_edges relaxed = Ok (a, e) /\
    forall y, labelling 3 3 y -> score 3 ex47_edges (mget ex47_U3) (pw_table ex47_p3) (lab y) + ex47_half <= - e.
Proof.
  intros EV EB ES HO.
  assert (G : graph_edges 3 ex47_edges) by (repeat constructor).
  assert (M1 : mat_ok ex47_U3) by apply mtab_ok. assert (M2 : pw_ok ex47_p3) by repeat constructor.
  assert (M3 : pw_shape ex47_p3 (length ex47_edges) 3) by repeat constructor.
  destruct (inference_lp_ok solve ex47_U3 ex47_p3 ex47_edges 3 3 pws pb x true M1 eq_refl eq_refl
              ltac:(lia) ltac:(lia) G M2 M3 EV EB ES HO) as (a & e & EI & UB & um & pm & -> & Rr & Rc & _ & _ & _ & _ & OPT).
  assert (V : exists a, inference_lp solve ex47_U3 ex47_p3 ex47_edges relaxed = Ok (a, e)).
  { destruct relaxed; [eauto|]. rewrite (inference_lp_labels _ _ _ _ _ _ _ EI).
    destruct (argmax_rows_ok um 3 3 Rr Rc ltac:(lia)) as (y & -> & _). cbn [bind]. eauto. }
  destruct V as [a Ea]. exists a, e. split; [exact Ea|]. intros y Hy.
  assert (LP : local_polytope 3 3 ex47_edges ex47_mu3 ex47_nu3).
  { constructor.
    - intros [|[|[|]]] [|[|[|]]] ? ?; try lia; vm_compute; discriminate.
    - intros [|[|[|]]] [|[|[|]]] [|[|[|]]] ? ? ?; simpl in *; try lia; vm_compute; discriminate.
    - intros [|[|[|]]] ?; try lia; apply Qc_is_canon; vm_compute; reflexivity.
    - intros [|[|[|]]] [|[|[|]]] ? ?; simpl in *; try lia; apply Qc_is_canon; vm_compute; reflexivity.
    - intros [|[|[|]]] [|[|[|]]] ? ?; simpl in *; try lia; apply Qc_is_canon; vm_compute; reflexivity. }
  specialize (OPT _ _ LP). eapply Qcle_trans; [|exact OPT].
  assert (Q : forallb (fun z => Qcleb (score 3 ex47_edges (mget ex47_U3) (pw_table ex47_p3) (lab z) + ex47_half)
     (marginal_score 3 3 ex47_edges (mget ex47_U3) (pw_table ex47_p3) ex47_mu3 ex47_nu3)) (Model.Exhaustive.product_range 3 3) = true)
    by (vm_compute; reflexivity).
  rewrite forallb_forall in Q. specialize (Q y (proj2 (CRFProofs.product_range_in 3 3 y) Hy)).
  match type of Q with Qcleb ?a ?b = true => destruct (Qcleb_spec a b) end; [assumption|discriminate].
Qed.

Lemma ex47_bound3 mu nu : local_polytope 3 3 ex47_edges mu nu ->
  marginal_score 3 3 ex47_edges (mget ex47_U3) (pw_table ex47_p3) mu nu <= 1 + ex47_half.
Proof.
  intros [L0 LN L1 LF LS].
  assert (S3 : forall f, sumn 3 f = f 0%nat + f 1%nat + f 2%nat) by (intros; rewrite !sumn_S, sumn_O; ring).
  assert (ED : forall e s, (e < 3)%nat -> (s < 3)%nat -> nu e s s <= mu (fst (nth e ex47_edges (0, 0)%nat)) s /\ nu e s s <= mu (snd (nth e ex47_edges (0, 0)%nat)) s).
  { intros e s He Hs. pose proof (LF e s He Hs) as F. pose proof (LS e s He Hs) as T. rewrite S3 in F, T. cbv beta in F, T. rewrite <- F, <- T.
    pose proof (LN e s 0%nat He Hs ltac:(lia)). pose proof (LN e s 1%nat He Hs ltac:(lia)). pose proof (LN e s 2%nat He Hs ltac:(lia)).
    pose proof (LN e 0%nat s He ltac:(lia) Hs). pose proof (LN e 1%nat s He ltac:(lia) Hs). pose proof (LN e 2%nat s He ltac:(lia) Hs).
    clear - Hs H H0 H1 H2 H3 H4. destruct s as [|[|[|]]]; try lia; split; qclra. }
  pose proof (L1 0%nat ltac:(lia)) as A0. pose proof (L1 1%nat ltac:(lia)) as A1. pose proof (L1 2%nat ltac:(lia)) as A2. rewrite S3 in A0, A1, A2.
  destruct (ED 0%nat 0%nat ltac:(lia) ltac:(lia)) as [B1 _]. destruct (ED 0%nat 1%nat ltac:(lia) ltac:(lia)) as [_ B2].
  destruct (ED 0%nat 2%nat ltac:(lia) ltac:(lia)) as [B3 B4].
  destruct (ED 1%nat 1%nat ltac:(lia) ltac:(lia)) as [C1 _]. destruct (ED 1%nat 2%nat ltac:(lia) ltac:(lia)) as [_ C2].
  destruct (ED 1%nat 0%nat ltac:(lia) ltac:(lia)) as [C3 C4].
  destruct (ED 2%nat 0%nat ltac:(lia) ltac:(lia)) as [D1 _]. destruct (ED 2%nat 2%nat ltac:(lia) ltac:(lia)) as [_ D2].
  destruct (ED 2%nat 1%nat ltac:(lia) ltac:(lia)) as [D3 D4]. cbn [ex47_edges nth fst snd] in *.
  assert (E : marginal_score 3 3 ex47_edges (mget ex47_U3) (pw_table ex47_p3) mu nu =
    - (mu 0%nat 0%nat + mu 0%nat 0%nat) - (mu 1%nat 1%nat + mu 1%nat 1%nat) - (mu 2%nat 2%nat + mu 2%nat 2%nat) +
    (nu 0%nat 0%nat 0%nat + nu 0%nat 1%nat 1%nat + nu 0%nat 2%nat 2%nat) +
    (nu 1%nat 0%nat 0%nat + nu 1%nat 1%nat 1%nat + nu 1%nat 2%nat 2%nat) +
    (nu 2%nat 0%nat 0%nat + nu 2%nat 1%nat 1%nat + nu 2%nat 2%nat 2%nat)).
  { unfold marginal_score. change (length ex47_edges) with 3%nat. rewrite !S3.
    assert (U0 : forall i s, (i < 3)%nat -> (s < 3)%nat -> mget ex47_U3 i s = if (i =? s)%nat then - (1 + 1) else 0)
      by (intros; unfold ex47_U3; now rewrite mget_mtab).
    rewrite !U0 by lia. cbn [Nat.eqb]. cbn [pw_table ex47_p3]. unfold mget, get2, get1. cbn [mdat nth]. ring. }
  rewrite E. assert (HH : ex47_half + ex47_half = 1) by (apply Qc_is_canon; reflexivity). revert HH. generalize ex47_half. intros h HH.
  pose proof (L0 0%nat 0%nat ltac:(lia) ltac:(lia)) as Z0. pose proof (L0 1%nat 1%nat ltac:(lia) ltac:(lia)) as Z1.
  pose proof (L0 2%nat 2%nat ltac:(lia) ltac:(lia)) as Z2.
  clear - A0 A1 A2 Z0 Z1 Z2 B1 B2 B3 B4 C1 C2 C3 C4 D1 D2 D3 D4 HH. qclra.
Qed.
Lemma ex47_three_optimum : exists pws pb x, validate_params ex47_U3 ex47_p3 3 = Ok (3%nat, pws) /\
  lp_build (mat_neg ex47_U3) ex47_edges (map (map (map Qcopp)) pws) = Ok pb /\ optimal pb x.
Proof.
  assert (G : graph_edges 3 ex47_edges) by (repeat constructor).
  assert (M1 : mat_ok ex47_U3) by apply mtab_ok. assert (M2 : pw_ok ex47_p3) by repeat constructor.
  assert (M3 : pw_shape ex47_p3 (length ex47_edges) 3) by repeat constructor.
  destruct (lp_problem_ok ex47_U3 ex47_p3 ex47_edges 3 3 M1 eq_refl eq_refl ltac:(lia) ltac:(lia) G M2 M3) as (pws & pb & EV & EB & _ & FI & OB & _).
  pose (x := [0; ex47_half; ex47_half; ex47_half; 0; ex47_half; ex47_half; ex47_half; 0] ++
    flat_map (fun e => flat_map (fun s => map (fun t => ex47_nu3 e s t) (seq 0 3)) (seq 0 3)) (seq 0 3)).
  exists pws, pb, x. split; [exact EV|]. split; [exact EB|].
  assert (Fx : feasible pb x).
  { apply FI. split; [reflexivity|]. constructor.
    - intros [|[|[|]]] [|[|[|]]] ? ?; try lia; vm_compute; discriminate.
    - intros [|[|[|]]] [|[|[|]]] [|[|[|]]] ? ? ?; simpl in *; try lia; vm_compute; discriminate.
    - intros [|[|[|]]] ?; try lia; apply Qc_is_canon; vm_compute; reflexivity.
    - intros [|[|[|]]] [|[|[|]]] ? ?; simpl in *; try lia; apply Qc_is_canon; vm_compute; reflexivity.
    - intros [|[|[|]]] [|[|[|]]] ? ?; simpl in *; try lia; apply Qc_is_canon; vm_compute; reflexivity. }
  split; [exact Fx|]. intros x' Fx'. rewrite (OB x Fx), (OB x' Fx'). apply FI in Fx'. destruct Fx' as [_ L].
  apply ex47_bound3 in L.
  assert (V : marginal_score 3 3 ex47_edges (mget ex47_U3) (pw_table ex47_p3) (var_mu 3 x) (var_nu 3 3 x) = 1 + ex47_half)
    by (apply Qc_is_canon; vm_compute; reflexivity).
  rewrite V. revert L. generalize (marginal_score 3 3 ex47_edges (mget ex47_U3) (pw_table ex47_p3) (var_mu 3 x') (var_nu 3 3 x')), ex47_half.
  intros; qclra.
Qed.
