(** Consequences for LP inference on forests. *)
From Verif Require Import Model.LP Model.Inference Spec.Energy Spec.SolverSpec Spec.LocalPolytope Spec.LPSpec Spec.MixtureSpec Spec.GraphTheory
  Proofs.Arrays Proofs.LPProofs Proofs.LPProofs2 Proofs.InferenceProofs Proofs.ForestLP.

Lemma lab_lt n k y i : labelling n k y -> (i < n)%nat -> (lab y i < k)%nat.
Proof. intros [L F] Hi. rewrite Forall_forall in F. unfold lab. apply F, nth_In. now rewrite L. Qed.
Lemma edge_lt n edges e : graph_edges n edges -> (e < length edges)%nat ->
  (fst (nth e edges (0, 0)) < n)%nat /\ (snd (nth e edges (0, 0)) < n)%nat.
Proof. intros G He. unfold graph_edges in G. rewrite Forall_forall in G. apply G, nth_In, He. Qed.

Lemma mixture_labels n k edges D mu nu : mixture n k edges D mu nu -> Forall (fun p => labelling n k (snd p)) D.
Proof. intros [H _]. revert H. apply Forall_impl. intros p H. apply H. Qed.
Lemma mixture_score n k edges U P D mu nu :
  graph_edges n edges -> mixture n k edges D mu nu ->
  marginal_score n k edges U P mu nu = mean D (fun y => score n edges U P (lab y)).
Proof.
  intros G HM. pose proof (mixture_labels _ _ _ _ _ _ HM) as HL. destruct HM as (HD & H1 & H2 & H3).
  unfold score. rewrite mean_plus, !mean_sumn. unfold marginal_score. f_equal.
  - apply sumn_ext. intros i Hi. rewrite (mean_group D n k i (fun s => U i s)) by assumption.
    apply sumn_ext. intros s Hs. rewrite (H2 i s Hi Hs). ring.
  - apply sumn_ext. intros e He. destruct (edge_lt n edges e G He) as [Ha Hb].
    transitivity (mean D (fun y => sumn k (fun s => sumn k (fun t => P e s t * one_hot_nu edges (lab y) e s t)))).
    + rewrite mean_sumn. apply sumn_ext. intros s Hs. rewrite mean_sumn. apply sumn_ext. intros t Ht.
      rewrite mean_mult_l, <- H3 by assumption. ring.
    + apply mean_ext. intros w y I. f_equal. rewrite Forall_forall in HL. specialize (HL _ I). cbn [snd] in HL.
      unfold one_hot_nu. set (a := fst (nth e edges (0, 0)%nat)) in *. set (b := snd (nth e edges (0, 0)%nat)) in *.
      rewrite (sumn_ext k _ (fun s => ind (s =? lab y a)%nat * P e s (lab y b))).
      * rewrite sumn_pick; [reflexivity|]. eapply lab_lt; eassumption.
      * intros s Hs. rewrite (sumn_ext k _ (fun t => ind (t =? lab y b)%nat * (ind (s =? lab y a)%nat * P e s t))) by (intros; ring).
        rewrite sumn_pick; [reflexivity|]. eapply lab_lt; eassumption.
Qed.
Lemma mixture_in_polytope n k edges D mu nu :
  graph_edges n edges -> mixture n k edges D mu nu -> local_polytope n k edges mu nu.
Proof.
  intros G HM. pose proof (mixture_labels _ _ _ _ _ _ HM) as HL. destruct HM as (HD & H1 & H2 & H3).
  assert (HP : Forall (fun p => 0 <= fst p) D) by (revert HD; apply Forall_impl; intros p H; apply H).
  assert (I01 : forall b, 0 <= ind b) by (intros []; discriminate).
  assert (pick : forall i y w, In (w, y) D -> (i < n)%nat -> sumn k (fun s => ind (s =? lab y i)%nat) = 1).
  { intros i y w I Hi. rewrite Forall_forall in HL. specialize (HL _ I). cbn [snd] in HL.
    rewrite (sumn_ext k _ (fun s => ind (s =? lab y i)%nat * 1)) by (intros; ring).
    apply sumn_pick with (f := fun _ => 1). eapply lab_lt; eassumption. }
  constructor.
  - intros i s Hi Hs. rewrite H2 by assumption. apply mean_nonneg; [assumption|]. intros y. apply I01.
  - intros e s t He Hs Ht. rewrite H3 by assumption. apply mean_nonneg; [assumption|]. intros y. apply Qcmult_nonneg; apply I01.
  - intros i Hi. rewrite (sumn_ext k _ (fun s => mean D (fun y => one_hot_mu (lab y) i s))) by (intros; auto).
    rewrite <- mean_sumn. transitivity (mean D (fun _ => 1)); [|exact H1]. apply mean_ext. intros w y I. f_equal. unfold one_hot_mu. eapply pick; eassumption.
  - intros e s He Hs. destruct (edge_lt n edges e G He) as [Ha Hb].
    rewrite (sumn_ext k _ (fun t => mean D (fun y => one_hot_nu edges (lab y) e s t))) by (intros; auto).
    rewrite <- mean_sumn, H2 by assumption. apply mean_ext. intros w y I. f_equal. unfold one_hot_nu, one_hot_mu.
    rewrite sumn_mult_l, (pick _ y w I Hb). ring.
  - intros e t He Ht. destruct (edge_lt n edges e G He) as [Ha Hb].
    rewrite (sumn_ext k _ (fun s => mean D (fun y => one_hot_nu edges (lab y) e s t))) by (intros; auto).
    rewrite <- mean_sumn, H2 by assumption. apply mean_ext. intros w y I. f_equal. unfold one_hot_nu, one_hot_mu.
    rewrite sumn_mult_r, (pick _ y w I Ha). ring.
Qed.
Lemma forest_polytope_iff n k edges mu nu :
  graph_edges n edges -> acyclic edges ->
  (local_polytope n k edges mu nu <-> exists D, mixture n k edges D mu nu).
Proof.
  intros G A. split.
  - now apply forest_mixture.
  - intros [D H]. now apply mixture_in_polytope with D.
Qed.

(** a mean is at most the largest value; if it reaches a bound, so does every supported value *)
Lemma mean_bound D f V : Forall (fun p => 0 <= fst p) D -> mean D (fun _ => 1) = 1 ->
  (forall w y, In (w, y) D -> f y <= V) -> mean D f <= V.
Proof.
  intros HP H1 Hf. replace V with (V * 1) by ring. rewrite <- H1 at 1. rewrite <- mean_mult_l.
  unfold mean. apply lsum_map_le. intros [w y] I. cbn [fst snd]. specialize (Hf w y I).
  rewrite Forall_forall in HP. specialize (HP _ I). cbn [fst] in HP.
  assert (0 <= w * (V - f y)) by (apply Qcmult_nonneg; [assumption|qclra]).
  replace (w * (V - f y)) with (w * V - w * f y) in H by ring. replace (w * (V * 1)) with (w * V) by ring. qclra.
Qed.
Lemma mean_attained D f V : Forall (fun p => 0 <= fst p) D -> mean D (fun _ => 1) = 1 ->
  (forall w y, In (w, y) D -> f y <= V) -> mean D f = V ->
  forall w y, In (w, y) D -> 0 < w -> f y = V.
Proof.
  intros HP H1 Hf HV.
  assert (Z : lsum (map (fun p => fst p * (V - f (snd p))) D) = 0).
  { rewrite (lsum_map_ext _ (fun p => V * (fst p * 1) + (- (1)) * (fst p * f (snd p)))) by (intros; ring).
    rewrite lsum_map_plus, !lsum_map_mult_l. change (V * mean D (fun _ => 1) + - (1) * mean D f = 0). rewrite H1, HV. ring. }
  clear H1 HV. induction D as [|[w0 y0] D IH]; [intros w y []|].
  inversion HP as [|p q P1 P2]; subst. cbn [map lsum fst snd] in Z, P1.
  assert (A0 : 0 <= w0 * (V - f y0)).
  { apply Qcmult_nonneg; [assumption|]. specialize (Hf w0 y0 (or_introl eq_refl)). qclra. }
  assert (A1 : 0 <= lsum (map (fun p => fst p * (V - f (snd p))) D)).
  { apply lsum_nonneg. intros x I. apply in_map_iff in I. destruct I as ([w y] & <- & I). cbn [fst snd].
    rewrite Forall_forall in P2. specialize (P2 _ I). cbn [fst] in P2. specialize (Hf w y (or_intror I)).
    apply Qcmult_nonneg; [assumption|]. qclra. }
  assert (Z0 : w0 * (V - f y0) = 0 /\ lsum (map (fun p => fst p * (V - f (snd p))) D) = 0).
  { revert A0 A1 Z. generalize (w0 * (V - f y0)) (lsum (map (fun p => fst p * (V - f (snd p))) D)).
    intros u v ? ? ?. split; apply Qcle_antisym; qclra. }
  destruct Z0 as [Z0 Z1]. intros w y [I|I] Hw.
  - injection I as -> ->. apply Qcmult_integral in Z0. destruct Z0 as [Z0|Z0].
    + rewrite Z0 in Hw. discriminate.
    + apply Qcle_antisym; qclra.
  - apply IH with w; auto. intros w' y' I'. apply Hf with w'. now right.
Qed.
Lemma mean_pos_support D f : Forall (fun p => 0 <= fst p) D -> (forall y, f y = 0 \/ f y = 1) ->
  0 < mean D f -> exists w y, In (w, y) D /\ 0 < w /\ f y = 1.
Proof.
  intros HP Hf. unfold mean. induction D as [|[w y] D IH]; cbn [map lsum fst snd]; intros H.
  - exfalso. revert H. vm_compute. discriminate.
  - inversion HP as [|p q P1 P2]; subst. cbn [fst] in P1.
    destruct (Hf y) as [E|E].
    + rewrite E in H. destruct IH as (w' & y' & I & A & B); [assumption| |].
      replace (w * 0) with 0 in H by ring. generalize dependent (lsum (map (fun p => fst p * f (snd p)) D)). intros; qclra.
      exists w', y'. split; [now right|auto].
    + apply Qcle_lt_or_eq in P1. destruct P1 as [P1|P1].
      * exists w, y. split; [now left|auto].
      * destruct IH as (w' & y' & I & A & B); [assumption| |].
        rewrite E, <- P1 in H. replace (0 * 1) with 0 in H by ring.
        generalize dependent (lsum (map (fun p => fst p * f (snd p)) D)). intros; qclra.
        exists w', y'. split; [now right|auto].
Qed.

(** the best point of the polytope of a forest *)
Lemma forest_lp_value n k edges U P mu nu :
  graph_edges n edges -> acyclic edges -> local_polytope n k edges mu nu ->
  exists y, labelling n k y /\ marginal_score n k edges U P mu nu <= score n edges U P (lab y).
Proof.
  intros G A L. destruct (forest_mixture n k edges mu nu G A L) as [D HM].
  rewrite (mixture_score n k edges U P D mu nu G HM). pose proof (mixture_labels _ _ _ _ _ _ HM) as HL.
  destruct HM as (HD & H1 & _).
  assert (HP : Forall (fun p => 0 <= fst p) D) by (revert HD; apply Forall_impl; intros p H; apply H).
  set (f := fun y => score n edges U P (lab y)). clear HD.
  (* the entry with the largest score *)
  assert (B : D <> [] -> exists w y, In (w, y) D /\ forall v z, In (v, z) D -> f z <= f y).
  { clear. induction D as [|[w y] D IH]; intros HN; [congruence|]. destruct D as [|p D].
    - exists w, y. split; [now left|]. intros v z [I|[]]. injection I as _ ->. apply Qcle_refl.
    - destruct IH as (w' & y' & I & B); [discriminate|].
      destruct (Qclt_le_dec (f y') (f y)) as [Q|Q].
      + exists w, y. split; [now left|]. intros v z [J|J].
        * injection J as _ ->. apply Qcle_refl.
        * apply Qcle_trans with (f y'). apply (B v z J). now apply Qclt_le_weak.
      + exists w', y'. split; [now right|]. intros v z [J|J].
        * injection J as _ ->. exact Q.
        * apply (B v z J). }
  destruct B as (w & y & I & B).
  { intros ->. revert H1. vm_compute. discriminate. }
  exists y. split.
  - rewrite Forall_forall in HL. apply (HL _ I).
  - change (mean D f <= f y). apply mean_bound; auto. 
Qed.
Lemma forest_lp_support n k edges U P mu nu :
  graph_edges n edges -> acyclic edges -> local_polytope n k edges mu nu ->
  (forall y, labelling n k y -> score n edges U P (lab y) <= marginal_score n k edges U P mu nu) ->
  forall i s, (i < n)%nat -> (s < k)%nat -> 0 < mu i s ->
  exists y, maximiser n k edges U P y /\ lab y i = s /\ score n edges U P (lab y) = marginal_score n k edges U P mu nu.
Proof.
  intros G A L UB i s Hi Hs Hmu. destruct (forest_mixture n k edges mu nu G A L) as [D HM].
  pose proof (mixture_score n k edges U P D mu nu G HM) as E. pose proof (mixture_labels _ _ _ _ _ _ HM) as HL.
  destruct HM as (HD & H1 & H2 & _). rewrite Forall_forall in HL.
  assert (HP : Forall (fun p => 0 <= fst p) D) by (revert HD; apply Forall_impl; intros p H; apply H).
  rewrite (H2 i s Hi Hs) in Hmu.
  assert (F01 : forall y, one_hot_mu (lab y) i s = 0 \/ one_hot_mu (lab y) i s = 1)
    by (intros y; unfold one_hot_mu, ind; destruct (s =? lab y i)%nat; auto).
  destruct (mean_pos_support D (fun y => one_hot_mu (lab y) i s) HP F01 Hmu) as (w & y & I & Hw & Hy).
  assert (S : score n edges U P (lab y) = marginal_score n k edges U P mu nu).
  { refine (mean_attained D (fun y => score n edges U P (lab y)) _ HP H1 _ _ w y I Hw).
    - intros v z J. apply UB. apply (HL _ J).
    - symmetry. exact E. }
  exists y. split; [|split; [|assumption]].
  - split. apply (HL _ I). intros z Hz. rewrite S. now apply UB.
  - unfold one_hot_mu, ind in Hy. destruct (Nat.eqb_spec s (lab y i)); [congruence|]. exfalso. revert Hy. vm_compute. discriminate.
Qed.

(** decoding by argmax picks labels with positive marginals *)
Lemma argmax_positive k (mu : nat -> Qc) s : (0 < k)%nat -> sumn k mu = 1 -> (forall t, (t < k)%nat -> 0 <= mu t) ->
  (s < k)%nat -> (forall t, (t < k)%nat -> mu t <= mu s) -> 0 < mu s.
Proof.
  intros Hk H1 H0 Hs HM. pose proof (H0 s Hs) as P. apply Qcle_lt_or_eq in P. destruct P as [P|P]; [assumption|].
  exfalso. rewrite sumn_zero in H1.
  - revert H1. vm_compute. discriminate.
  - intros t Ht. apply Qcle_antisym; [apply Qcle_trans with (mu s); [auto|rewrite <- P; apply Qcle_refl]|auto].
Qed.
Lemma labels_ext n k y z : labelling n k y -> labelling n k z -> (forall i, (i < n)%nat -> lab y i = lab z i) -> y = z.
Proof.
  intros [L1 _] [L2 _] H. apply nth_ext with O O; [congruence|]. intros i Hi. apply H. now rewrite <- L1.
Qed.

(** decoding any optimal point on a forest *)
Lemma forest_decode n k edges U P (um : mat) nu :
  graph_edges n edges -> acyclic edges -> (0 < k)%nat -> mrows um = n -> mcols um = k ->
  local_polytope n k edges (mget um) nu ->
  (forall y, labelling n k y -> score n edges U P (lab y) <= marginal_score n k edges U P (mget um) nu) ->
  exists y, argmax_rows um = Ok y /\ labelling n k y /\
    (forall i, (i < n)%nat -> exists y', maximiser n k edges U P y' /\ lab y' i = lab y i) /\
    (forall ys, maximiser n k edges U P ys -> (forall z, maximiser n k edges U P z -> z = ys) ->
       y = ys /\ forall i s, (i < n)%nat -> (s < k)%nat -> mget um i s = one_hot_mu (lab ys) i s).
Proof.
  intros G A Hk Hr Hc L UB. destruct (argmax_rows_ok um n k Hr Hc Hk) as (y & EA & HY & HM).
  exists y. split; [assumption|]. split; [assumption|].
  assert (S : forall i s, (i < n)%nat -> (s < k)%nat -> 0 < mget um i s -> exists y', maximiser n k edges U P y' /\ lab y' i = s).
  { intros i s Hi Hs Hp. destruct (forest_lp_support n k edges U P (mget um) nu G A L UB i s Hi Hs Hp) as (z & Hz & E & _).
    exists z. auto. }
  destruct L as [L0 _ L1 _ _].
  assert (PY : forall i, (i < n)%nat -> 0 < mget um i (lab y i)).
  { intros i Hi. apply (argmax_positive k (mget um i)); auto. eapply lab_lt; eassumption. }
  split.
  - intros i Hi. apply S; auto. eapply lab_lt; eassumption.
  - intros ys HS HU. split.
    + apply (labels_ext n k); [assumption|apply HS|]. intros i Hi.
      destruct (S i (lab y i) Hi) as (z & Hz & E); auto. eapply lab_lt; eassumption. now rewrite <- E, (HU z Hz).
    + assert (Z : forall i s, (i < n)%nat -> (s < k)%nat -> s <> lab ys i -> mget um i s = 0).
      { intros i s Hi Hs HN. pose proof (L0 i s Hi Hs) as P0. apply Qcle_lt_or_eq in P0. destruct P0 as [P0|P0]; [|now symmetry].
        destruct (S i s Hi Hs P0) as (z & Hz & E). rewrite (HU z Hz) in E. congruence. }
      intros i s Hi Hs. unfold one_hot_mu, ind. destruct (Nat.eqb_spec s (lab ys i)) as [->|HN]; [|now apply Z].
      rewrite <- (L1 i Hi). symmetry.
      rewrite (sumn_ext k _ (fun t => ind (t =? lab ys i)%nat * mget um i t)).
      * apply sumn_pick. eapply lab_lt; [apply HS|assumption].
      * intros t Ht. unfold ind. destruct (Nat.eqb_spec t (lab ys i)) as [->|HN]; [ring|]. rewrite (Z i t Hi Ht HN). ring.
Qed.

Lemma inference_lp_labels solve U p edges um pm e :
  inference_lp solve U p edges true = Ok (Marginals um pm, e) ->
  inference_lp solve U p edges false = (let! y := argmax_rows um in Ok (Labels y, e)).
Proof.
  unfold inference_lp. destruct (validate_params U p (length edges)) as [[k pws]|]; [|discriminate]. cbn [bind].
  destruct (lp_general_graph _ _ _ _ _ _) as [[[um' pm'] en]|]; [|discriminate]. cbn [bind].
  intros H. injection H as -> -> ->. reflexivity.
Qed.

Lemma inference_lp_forest solve U p edges n k pws pb x :
  mat_ok U -> mrows U = n -> mcols U = k -> (0 < n)%nat -> (0 < k)%nat ->
  graph_edges n edges -> acyclic edges -> pw_ok p -> pw_shape p (length edges) k ->
  validate_params U p (length edges) = Ok (k, pws) ->
  lp_build (mat_neg U) edges (map (map (map Qcopp)) pws) = Ok pb ->
  solve pb = Ok x -> optimal pb x ->
  exists y e um pm, inference_lp solve U p edges false = Ok (Labels y, e) /\
    inference_lp solve U p edges true = Ok (Marginals um pm, e) /\
    labelling n k y /\
    (exists ys, maximiser n k edges (mget U) (pw_table p) ys /\ score n edges (mget U) (pw_table p) (lab ys) = - e) /\
    (forall i, (i < n)%nat -> exists y', maximiser n k edges (mget U) (pw_table p) y' /\ lab y' i = lab y i) /\
    (forall ys, maximiser n k edges (mget U) (pw_table p) ys ->
       (forall z, maximiser n k edges (mget U) (pw_table p) z -> z = ys) ->
       y = ys /\ forall i s, (i < n)%nat -> (s < k)%nat -> mget um i s = one_hot_mu (lab ys) i s).
Proof.
  intros HU Hr Hc Hn Hk G A Hpo Hp EV EB ES HO.
  destruct (inference_lp_ok solve U p edges n k pws pb x true HU Hr Hc Hn Hk G Hpo Hp EV EB ES HO)
    as (a & e & EI & UB & um & pm & -> & Rr & Rc & _ & _ & L & MV & _).
  rewrite <- MV in UB.
  destruct (forest_decode n k edges (mget U) (pw_table p) um _ G A Hk Rr Rc L UB) as (y & EA & HY & HS & HQ).
  exists y, e, um, pm. split.
  { rewrite (inference_lp_labels _ _ _ _ _ _ _ EI), EA. reflexivity. }
  split; [assumption|]. split; [assumption|]. split; [|split; assumption].
  rewrite <- MV.
    destruct (forest_lp_support n k edges (mget U) (pw_table p) _ _ G A L UB 0%nat (lab y 0%nat) Hn) as (ys & H1 & _ & H2).
    + eapply lab_lt; eassumption.
    + apply (argmax_positive k (mget um 0%nat)); auto.
      * apply (lpo_one _ _ _ _ _ L). assumption.
      * intros t Ht. apply (lpo_mu _ _ _ _ _ L); assumption.
      * eapply lab_lt; eassumption.
      * intros t Ht. destruct (argmax_rows_first um y EA) as [_ F]. rewrite Rr, Rc in F. apply (F 0%nat Hn). assumption.
    + exists ys. auto.
Qed.

From Verif Require Import Spec.DispatchSpec Proofs.DispatchProofs.
Lemma ad3_forest b lib U p edges relaxed bnb exc n k pws um pm energy st :
  b_ad3 b = Some lib -> mat_ok U -> mrows U = n -> mcols U = k -> (0 < k)%nat ->
  graph_edges n edges -> acyclic edges ->
  validate_params U p (length edges) = Ok (k, pws) ->
  ad3_graph lib U edges pws bnb = Ok (um, pm, energy, st) ->
  mat_ok um -> mrows um = n -> mcols um = k ->
  local_polytope n k edges (mget um) (fun e s t => mget pm e (s * k + t)) ->
  (forall mu nu, local_polytope n k edges mu nu ->
     marginal_score n k edges (mget U) (pw_table p) mu nu <=
     marginal_score n k edges (mget U) (pw_table p) (mget um) (fun e s t => mget pm e (s * k + t))) ->
  (relaxed = false \/ st = Integral) ->
  exists y, inference_ad3 b (Single U p edges) relaxed bnb exc = Ok (RLabels y, - energy) /\
    labelling n k y /\
    (forall i, (i < n)%nat -> exists y', maximiser n k edges (mget U) (pw_table p) y' /\ lab y' i = lab y i) /\
    (forall ys, maximiser n k edges (mget U) (pw_table p) ys ->
       (forall z, maximiser n k edges (mget U) (pw_table p) z -> z = ys) -> y = ys).
Proof.
  intros Hb HU Hr Hc Hk G A EV EL Ho Rr Rc L OPT HR.
  assert (UB : forall y, labelling n k y -> score n edges (mget U) (pw_table p) (lab y) <=
            marginal_score n k edges (mget U) (pw_table p) (mget um) (fun e s t => mget pm e (s * k + t))).
  { intros y HY. rewrite <- (one_hot_score n k edges (mget U) (pw_table p) (lab y)).
    - apply OPT. apply one_hot_local; [assumption|]. intros i Hi. eapply lab_lt; eassumption.
    - assumption.
    - intros i Hi. eapply lab_lt; eassumption. }
  destruct (forest_decode n k edges (mget U) (pw_table p) um _ G A Hk Rr Rc L UB) as (y & EA & HY & HS & HQ).
  exists y. split.
  - unfold inference_ad3. rewrite Hb. cbn [imported bind]. rewrite EV. cbn [bind snd]. rewrite EL. cbn [bind].
    unfold single_answer. replace (not_integral st && relaxed)%bool with false.
    + rewrite EA. reflexivity.
    + destruct HR as [-> | ->]; [now rewrite andb_false_r|reflexivity].
  - split; [assumption|]. split; [assumption|]. intros ys H1 H2. now apply HQ.
Qed.

(** ** Counterexamples *)
(** two labels, no unaries, every edge rewards disagreement *)
Definition ex21_U (n : nat) : mat := mtab n 2 (fun _ _ => 0).
Definition ex21_p : pairwise := Pw2 (Mat 2 2 [[0; 1]; [1; 0]]).
Definition ex21_half : Qc := Q2Qc (1 # 2).
Definition ex21_nu (e s t : nat) : Qc := if (s =? t)%nat then 0 else ex21_half.
Definition ex21_triangle : list (nat * nat) := [(0, 1); (1, 2); (0, 2)]%nat.

Lemma ex21_meets n edges : graph_edges n edges ->
  mat_ok (ex21_U n) /\ pw_ok ex21_p /\ pw_shape ex21_p (length edges) 2.
Proof. intros _. split; [apply mtab_ok|]. split; repeat constructor. Qed.
Lemma ex21_point n edges : graph_edges n edges -> local_polytope n 2 edges (fun _ _ => ex21_half) ex21_nu.
Proof.
  intros G. constructor.
  - intros i s _ _. vm_compute. discriminate.
  - intros e s t _ _ _. unfold ex21_nu. destruct (s =? t)%nat; vm_compute; discriminate.
  - intros i _. rewrite !sumn_S, sumn_O. apply Qc_is_canon. reflexivity.
  - intros e [|[|s]] He Hs; try lia; rewrite !sumn_S, sumn_O; apply Qc_is_canon; reflexivity.
  - intros e [|[|s]] He Hs; try lia; rewrite !sumn_S, sumn_O; apply Qc_is_canon; reflexivity.
Qed.
Lemma ex21_triangle_gap solve pws pb x relaxed :
  validate_params (ex21_U 3) ex21_p 3 = Ok (2%nat, pws) ->
  lp_build (mat_neg (ex21_U 3)) ex21_triangle (map (map (map Qcopp)) pws) = Ok pb ->
  solve pb = Ok x -> optimal pb x ->
  exists a e, inference_lp solve (ex21_U 3) ex21_p ex21_triangle relaxed = Ok (a, e) /\
    forall y, labelling 3 2 y -> score 3 ex21_triangle (mget (ex21_U 3)) (pw_table ex21_p) (lab y) + 1 <= - e.
Proof.
  intros EV EB ES HO.
  assert (G : graph_edges 3 ex21_triangle) by (repeat constructor).
  destruct (ex21_meets 3 _ G) as (M1 & M2 & M3).
  destruct (inference_lp_ok solve (ex21_U 3) ex21_p ex21_triangle 3 2 pws pb x true M1 eq_refl eq_refl
              ltac:(lia) ltac:(lia) G M2 M3 EV EB ES HO) as (a & e & EI & UB & um & pm & -> & _ & _ & _ & _ & _ & _ & OPT).
  assert (V : exists a, inference_lp solve (ex21_U 3) ex21_p ex21_triangle relaxed = Ok (a, e)).
  { destruct relaxed; [eauto|].
    destruct (inference_lp_ok solve (ex21_U 3) ex21_p ex21_triangle 3 2 pws pb x false M1 eq_refl eq_refl
              ltac:(lia) ltac:(lia) G M2 M3 EV EB ES HO) as (a' & e' & EI' & _).
    rewrite (inference_lp_labels _ _ _ _ _ _ _ EI) in *. destruct (argmax_rows um) as [y|]; [|discriminate]. cbn [bind] in *. eauto. }
  destruct V as [a Ea]. exists a, e. split; [exact Ea|]. intros y [Ly Fy].
  specialize (OPT _ _ (ex21_point 3 _ G)).
  apply Qcle_trans with (marginal_score 3 2 ex21_triangle (mget (ex21_U 3)) (pw_table ex21_p) (fun _ _ => ex21_half) ex21_nu); [|exact OPT].
  destruct y as [|a0 [|a1 [|a2 [|]]]]; try discriminate Ly. clear - Fy.
  inversion Fy as [|p q A0 F0]; subst. inversion F0 as [|p q A1 F1]; subst. inversion F1 as [|p q A2 F2]; subst. clear - A0 A1 A2.
  destruct a0 as [|[|]]; try lia; destruct a1 as [|[|]]; try lia; destruct a2 as [|[|]]; try lia; vm_compute; discriminate.
Qed.

(** one edge, ties: the fractional point is optimal and decodes to the labelling 0, 0 *)
Definition ex21_x : list Qc := [ex21_half; ex21_half; ex21_half; ex21_half; 0; ex21_half; ex21_half; 0].
Definition ex21_solve : lp_solver := fun _ => Ok ex21_x.
Lemma ex21_ties :
  exists pws pb, validate_params (ex21_U 2) ex21_p 1 = Ok (2%nat, pws) /\
    lp_build (mat_neg (ex21_U 2)) [(0, 1)]%nat (map (map (map Qcopp)) pws) = Ok pb /\
    optimal pb ex21_x /\
    inference_lp ex21_solve (ex21_U 2) ex21_p [(0, 1)]%nat false = Ok (Labels [0; 0]%nat, - (1)) /\
    score 2 [(0, 1)]%nat (mget (ex21_U 2)) (pw_table ex21_p) (lab [0; 0]%nat) = 0 /\
    score 2 [(0, 1)]%nat (mget (ex21_U 2)) (pw_table ex21_p) (lab [0; 1]%nat) = 1.
Proof.
  assert (G : graph_edges 2 [(0, 1)]%nat) by (repeat constructor).
  destruct (ex21_meets 2 _ G) as (M1 & M2 & M3).
  destruct (lp_problem_ok (ex21_U 2) ex21_p [(0, 1)]%nat 2 2 M1 eq_refl eq_refl ltac:(lia) ltac:(lia) G M2 M3)
    as [pws [pb [E1 [E2 [_ [FI [OB _]]]]]]].
  exists pws, pb. split; [exact E1|]. split; [exact E2|].
  assert (L : local_polytope 2 2 [(0, 1)]%nat (var_mu 2 ex21_x) (var_nu 2 2 ex21_x)).
  { constructor.
    - intros [|[|]] [|[|]] ? ?; try lia; vm_compute; discriminate.
    - intros [|] [|[|]] [|[|]] ? ? ?; simpl in *; try lia; vm_compute; discriminate.
    - intros [|[|]] ?; try lia; apply Qc_is_canon; reflexivity.
    - intros [|] [|[|]] ? ?; simpl in *; try lia; apply Qc_is_canon; reflexivity.
    - intros [|] [|[|]] ? ?; simpl in *; try lia; apply Qc_is_canon; reflexivity. }
  assert (F : feasible pb ex21_x) by (apply FI; split; [reflexivity|exact L]).
  assert (O : optimal pb ex21_x).
  { split; [exact F|]. intros z Hz. rewrite (OB z Hz), (OB _ F).
    apply FI in Hz. destruct Hz as [_ [P1 P2 P3 P4 P5]].
    set (mu := var_mu 2 z) in *. set (nu := var_nu 2 2 z) in *.
    replace (marginal_score 2 2 [(0, 1)%nat] (mget (ex21_U 2)) (pw_table ex21_p) (var_mu 2 ex21_x) (var_nu 2 2 ex21_x)) with 1
      by (apply Qc_is_canon; reflexivity).
    assert (A : marginal_score 2 2 [(0, 1)%nat] (mget (ex21_U 2)) (pw_table ex21_p) mu nu = nu 0%nat 0%nat 1%nat + nu 0%nat 1%nat 0%nat).
    { unfold marginal_score. cbn [length]. repeat (rewrite sumn_S || rewrite sumn_O).
      change (mget (ex21_U 2) 0 0) with 0. change (mget (ex21_U 2) 0 1) with 0. change (mget (ex21_U 2) 1 0) with 0. change (mget (ex21_U 2) 1 1) with 0.
      change (pw_table ex21_p 0 0 0) with 0. change (pw_table ex21_p 0 0 1) with 1. change (pw_table ex21_p 0 1 0) with 1. change (pw_table ex21_p 0 1 1) with 0.
      ring. }
    rewrite A.
    assert (Q1 := P3 0%nat ltac:(lia)). assert (Q2 := P4 0%nat 0%nat ltac:(simpl; lia) ltac:(lia)).
    assert (Q3 := P4 0%nat 1%nat ltac:(simpl; lia) ltac:(lia)).
    simpl nth in *. simpl fst in *. simpl snd in *. repeat (rewrite sumn_S in * || rewrite sumn_O in * ).
    assert (R3 := P2 0%nat 1%nat 1%nat ltac:(simpl; lia) ltac:(lia) ltac:(lia)).
    assert (R4 := P2 0%nat 0%nat 0%nat ltac:(simpl; lia) ltac:(lia) ltac:(lia)).
    set (a := mu 0%nat 0%nat) in *. set (b := mu 0%nat 1%nat) in *.
    set (n00 := nu 0%nat 0%nat 0%nat) in *. set (n01 := nu 0%nat 0%nat 1%nat) in *. set (n10 := nu 0%nat 1%nat 0%nat) in *. set (n11 := nu 0%nat 1%nat 1%nat) in *.
    clearbody a b n00 n01 n10 n11. clear - Q1 Q2 Q3 R3 R4. qclra. }
  split; [exact O|]. split; [|split; apply Qc_is_canon; reflexivity].
  destruct (inference_lp_ok ex21_solve (ex21_U 2) ex21_p [(0, 1)]%nat 2 2 pws pb ex21_x true M1 eq_refl eq_refl
              ltac:(lia) ltac:(lia) G M2 M3 E1 E2 eq_refl O) as (a & e & EI & _ & um & pm & -> & _).
  rewrite (inference_lp_labels _ _ _ _ _ _ _ EI). revert EI. clear. intros W.
  assert (V : argmax_rows um = Ok [0; 0]%nat /\ e = - (1)).
  { destruct (inference_lp ex21_solve (ex21_U 2) ex21_p [(0, 1)]%nat true) as [[[y|um' pm'] e']|] eqn:E; try discriminate W.
    injection W as <- <- <-. 
    assert (V : match inference_lp ex21_solve (ex21_U 2) ex21_p [(0, 1)]%nat true with
                | Ok (Marginals um pm, e) => argmax_rows um = Ok [0; 0]%nat /\ this e = (-1 # 1)%Q | _ => False end)
      by (vm_compute; split; reflexivity).
    rewrite E in V. destruct V as [V1 V2]. split; [exact V1|]. apply Qc_is_canon. rewrite V2. reflexivity. }
  destruct V as [-> ->]. reflexivity.
Qed.
