(** Whole runs of LatentSSVM; LatentGraphCRF; prediction and score; failures. *)
From Coq Require Import ZArith.
From Verif Require Import Model.LatentSSVM Model.ChainCRF Spec.SolverSpec Spec.GraphSpec Proofs.Arrays Proofs.GraphCRFProofs Proofs.LossProofs Proofs.LearnerProofs Proofs.QPProofs Proofs.NSlackProofs2 Proofs.NSlackProofs5 Proofs.OneSlackCache
  Proofs.OneSlackProofs2 Proofs.LatentProofs Proofs.LatentProofs2 Proofs.LatentProofs3 Proofs.LatentProofs4 Proofs.LatentProofs5 Proofs.PerceptronProofs4
  Proofs.LatentSSVMProofs Proofs.LatentSSVMProofs2 Spec.LatentSSVMSpec.

Section run.
Context {X Y B : Type} (T : task X Y) (E : X -> Y -> Y -> Prop) (d : nat) (ydiff : Y -> Y -> bool) (m : lmodel X Y) (bl : base_learner X Y B).
Variables (Xs : list X) (Ys : list Y) (C eps : Qc).
Notation S0 := (combine Xs Ys).
Hypothesis HL : length Xs = length Ys.
Hypothesis HC : 0 <= C.
Hypothesis HO : observed_loss T E S0.

Lemma hinges_exist w : length w = d -> Forall (latent_exact m T E d w) S0 -> forall H, completes E Xs Ys H -> exists hs, hinges T w (combine Xs H) hs.
Proof.
  intro Hw. clear - HL Hw. revert Ys HL. induction Xs as [|x xs IH]; intros [|y ys] HL HX H HH; try discriminate HL.
  - exists []. constructor.
  - unfold completes in HH. cbn [combine] in *. apply F2_left in HH. destruct HH as [h [H' [-> [A1 A2]]]]. apply Forall_cons_iff in HX. destruct HX as [X1 X2].
    destruct (IH ys ltac:(cbn in HL; lia) X2 H' A2) as [hs A3]. destruct X1 as [[_ [I1 _]] [_ X1]]. cbn [fst snd] in *.
    destruct (find_constraint_hinge (lm_s m) T d x h w (I1 h A1) Hw (X1 h A1)) as [hh [v [_ [_ [_ [_ [_ HV]]]]]]].
    exists (v :: hs). cbn [combine]. constructor; assumption.
Qed.
(** runs whose base learner does not make the completed objective worse *)
Lemma run_descends k Hi H0 l stop : cccp_fit ydiff m bl Xs Ys k Hi = Ok (H0, l, stop) ->
  (forall H b, In (H, b) l -> length (bl_w bl b) = d /\ Forall (latent_exact m T E d (bl_w bl b)) S0) ->
  (forall H b H' b', successive l (H, b) (H', b') -> forall hs hs', hinges T (bl_w bl b) (combine Xs H') hs -> hinges T (bl_w bl b') (combine Xs H') hs' ->
     primal_value C (bl_w bl b') hs' <= primal_value C (bl_w bl b) hs + eps) ->
  forall H b H' b', successive l (H, b) (H', b') -> latent_descends T E C eps S0 (bl_w bl b) (bl_w bl b').
Proof.
  intros EF HX HB H b H' b' HS. destruct (fit_trace ydiff m bl Xs Ys k Hi H0 l stop EF) as [_ [_ [_ [_ [_ [A _]]]]]].
  destruct (A _ _ HS) as [I1 _]. cbn [fst snd] in I1.
  assert (In (H, b) l /\ In (H', b') l) as [N1 N2].
  { destruct HS as [pre [post ->]]. split; apply in_or_app; right; [left; reflexivity|right; left; reflexivity]. }
  destruct (HX H b N1) as [W1 X1]. destruct (HX H' b' N2) as [W2 X2].
  apply (step_descends T E d m C eps Xs Ys _ _ H' W1 W2 HL X1 X2 I1). intros gs hs HG Hhs.
  destruct (completed_hinges T E d m (bl_w bl b) Xs Ys H' W1 X1 HL I1) as [_ [_ [_ HH']]].
  destruct (hinges_exist (bl_w bl b') W2 X2 H' HH') as [hs' Hhs'].
  apply Qcle_trans with (primal_value C (bl_w bl b') hs'); [|exact (HB H b H' b' HS hs hs' Hhs Hhs')].
  apply primal_mono; [exact HC|]. exact (latent_le_completed T E _ Xs Ys H' gs hs' HL HH' HO HG Hhs').
Qed.
Lemma below_descends k Hi H0 l stop : cccp_fit ydiff m bl Xs Ys k Hi = Ok (H0, l, stop) ->
  (forall H b, In (H, b) l -> length (bl_w bl b) = d /\ Forall (latent_exact m T E d (bl_w bl b)) S0 /\ latent_below T E d C eps Xs Ys H (bl_w bl b)) ->
  forall H b H' b', successive l (H, b) (H', b') -> latent_descends T E C eps S0 (bl_w bl b) (bl_w bl b').
Proof.
  intros EF HX H b H' b' HS. destruct (fit_trace ydiff m bl Xs Ys k Hi H0 l stop EF) as [_ [_ [_ [_ [_ [A _]]]]]].
  destruct (A _ _ HS) as [I1 _]. cbn [fst snd] in I1.
  assert (In (H, b) l /\ In (H', b') l) as [N1 N2].
  { destruct HS as [pre [post ->]]. split; apply in_or_app; right; [left; reflexivity|right; left; reflexivity]. }
  destruct (HX H b N1) as [W1 [X1 _]]. destruct (HX H' b' N2) as [W2 [X2 B2]].
  apply (step_descends T E d m C eps Xs Ys _ _ H' W1 W2 HL X1 X2 I1). intros gs hs HG Hhs. exact (B2 gs _ hs HG W1 Hhs).
Qed.
(** from the first to the n-th fit *)
Lemma chain_descends (l : list (list Y * B)) : (forall H b H' b', successive l (H, b) (H', b') -> latent_descends T E C eps S0 (bl_w bl b) (bl_w bl b')) ->
  forall n H b H' b' gs gs', nth_error l 0 = Some (H, b) -> nth_error l n = Some (H', b') ->
  latent_hinges T E (bl_w bl b) S0 gs -> latent_hinges T E (bl_w bl b') S0 gs' ->
  primal_value C (bl_w bl b') gs' <= primal_value C (bl_w bl b) gs + ofN n * eps.
Proof.
  intros HS n. induction n as [|n IH]; intros H b H' b' gs gs' E0 En HG HG'.
  - assert (b = b') by congruence. subst b'. rewrite (latent_hinges_unique T E _ S0 HO gs gs' HG HG'). rewrite ofN_0.
    match goal with |- ?a <= _ => replace (a + 0 * eps) with a by ring end. apply Qcle_refl.
  - destruct (nth_error l n) as [[H1 b1]|] eqn:E1.
    2:{ apply nth_error_None in E1. assert (S n < length l)%nat by (apply nth_error_Some; congruence). lia. }
    assert (SU : successive l (H1, b1) (H', b')).
    { clear - E1 En. revert n E1 En. induction l as [|q l IH]; intros n E1 En; [destruct n; discriminate|]. destruct n as [|n].
      - cbn in E1, En. destruct l as [|q' l]; [discriminate|]. cbn in En. injection E1 as ->. injection En as ->. exists [], l. reflexivity.
      - destruct (IH n E1 En) as [pre [post ->]]. exists (q :: pre), post. reflexivity. }
    destruct (HS _ _ _ _ SU) as [g1 [g2 [A1 [A2 A3]]]]. rewrite (latent_hinges_unique T E _ S0 HO gs' g2 HG' A2).
    assert (A4 := IH H b H1 b1 gs g1 E0 eq_refl HG A1). eapply Qcle_trans; [exact A3|].
    match goal with |- ?p + _ <= ?q + _ => set (u := p) in *; set (v := q) in * end. clearbody u v.
    replace (v + ofN (Datatypes.S n) * eps) with (v + ofN n * eps + eps) by (rewrite (ofN_S n); ring). apply Qcplus_le_compat; [exact A4|apply Qcle_refl].
Qed.
(** a run that stopped because the completion repeats *)
Lemma fixed_point k Hi H0 l : cccp_fit ydiff m bl Xs Ys k Hi = Ok (H0, l, NoChange) ->
  (forall H b, In (H, b) l -> length (bl_w bl b) = d /\ Forall (latent_exact m T E d (bl_w bl b)) S0 /\ completes E Xs Ys H) ->
  (forall p h h', In p S0 -> E (fst p) (snd p) h -> E (fst p) (snd p) h' -> ydiff h h' = false -> h = h') ->
  exists pre H b gs, l = pre ++ [(H, b)] /\ completed_at m (bl_w bl b) Xs Ys H /\ hinges T (bl_w bl b) (combine Xs H) gs /\ latent_hinges T E (bl_w bl b) S0 gs.
Proof.
  intros EF HX HD. destruct (fit_trace ydiff m bl Xs Ys k Hi H0 l NoChange EF) as [_ [_ [_ [_ [_ [_ A]]]]]]. destruct (A eq_refl) as [_ [pre [H [b [Hn [-> [CA DF]]]]]]].
  destruct (HX H b ltac:(apply in_or_app; right; left; reflexivity)) as [W [X1 HH]].
  destruct (completed_hinges T E d m (bl_w bl b) Xs Ys Hn W X1 HL CA) as [gs [A1 [A2 A3]]].
  assert (Hn = H).
  { clear - HD HH A3 DF. unfold completes in *. unfold differ in DF. revert H Hn HH A3 HD DF. generalize S0. intro S. induction S as [|p S IH]; intros H Hn HH A3 HD DF.
    - apply F2_nil in HH. apply F2_nil in A3. congruence.
    - apply F2_left in HH. destruct HH as [h [Ht [-> [P1 P2]]]]. apply F2_left in A3. destruct A3 as [h' [Ht' [-> [Q1 Q2]]]].
      cbn [combine existsb fst snd] in DF. apply Bool.orb_false_iff in DF. destruct DF as [D1 D2]. f_equal.
      + exact (HD p h' h (or_introl eq_refl) Q1 P1 D1).
      + apply (IH Ht Ht' P2 Q2); [intros q u v Hq; apply (HD q); right; exact Hq|exact D2]. }
  subst Hn. exists pre, H, b, gs. auto.
Qed.
End run.

(** ** failures *)
Section failures.
Context {X Y B : Type} (ydiff : Y -> Y -> bool) (m : lmodel X Y).
Lemma perceptron_fails (w : B -> list Qc) Xs Ys k Hi H : (match Hi with Some H => Ok H | None => lm_init m (combine Xs Ys) end) = Ok H ->
  cccp_fit ydiff m (perceptron_base w) Xs Ys (S k) Hi = Err TypeError.
Proof. intro E. unfold cccp_fit. rewrite E. reflexivity. Qed.
Lemma frankwolfe_iterates first (w : B -> list Qc) Xs Ys q q' : ~ iterates ydiff m (frankwolfe_base first w) Xs Ys q q'.
Proof. intros [_ [_ [cs [_ H]]]]. discriminate H. Qed.
Lemma frankwolfe_once first (w : B -> list Qc) Xs Ys k Hi H0 l stop : cccp_fit ydiff m (frankwolfe_base first w) Xs Ys (S k) Hi = Ok (H0, l, stop) ->
  exists b, l = [(H0, b)] /\ first Xs H0 = Ok b.
Proof.
  intro E. destruct (fit_trace _ _ _ _ _ _ _ _ _ _ E) as [_ [_ [_ [A1 [A2 [A3 _]]]]]]. destruct l as [|[H b] l]; [destruct A1 as [A1 _]; specialize (A1 eq_refl); discriminate|].
  destruct (A2 (H, b) l eq_refl) as [A4 A5]. cbn [fst snd frankwolfe_base bl_fit] in *. subst H. exists b. split; [|exact A5].
  destruct l as [|q l]; [reflexivity|]. exfalso. apply (frankwolfe_iterates first w Xs Ys (H0, b) q). apply A3. exists [], l. reflexivity.
Qed.
Lemma frankwolfe_fails first (w : B -> list Qc) Xs Ys k Hi H b Hn : (match Hi with Some H => Ok H | None => lm_init m (combine Xs Ys) end) = Ok H ->
  first Xs H = Ok b -> completed_at m (w b) Xs Ys Hn -> existsb (fun q => ydiff (fst q) (snd q)) (combine Hn H) = true ->
  cccp_fit ydiff m (frankwolfe_base first w) Xs Ys (S (S k)) Hi = Err TypeError.
Proof.
  intros E EF HC HD. unfold cccp_fit. rewrite E. cbn [bind frankwolfe_base bl_fit]. rewrite EF. cbn [bind cccp_loop frankwolfe_base bl_w].
  apply completed_mapM in HC. rewrite HC. cbn [bind]. rewrite HD. reflexivity.
Qed.
(** errors of the completion are passed on *)
Lemma completion_error (bl : base_learner X Y B) Xs Ys k Hi H b e : (match Hi with Some H => Ok H | None => lm_init m (combine Xs Ys) end) = Ok H ->
  bl_fit bl Xs H = Ok b -> mapM (fun p => lm_latent m (fst p) (snd p) (bl_w bl b)) (combine Xs Ys) = Err e -> cccp_fit ydiff m bl Xs Ys (S (S k)) Hi = Err e.
Proof. intros E EF HC. unfold cccp_fit. rewrite E. cbn [bind]. rewrite EF. cbn [bind cccp_loop]. rewrite HC. reflexivity. Qed.
End failures.

(** ** label arrays *)
Lemma differ_same a b : length a = length b -> labels_differ a b = false <-> a = b.
Proof.
  intro HL. unfold labels_differ. rewrite (proj2 (Nat.eqb_eq _ _) HL). revert b HL. induction a as [|u a IH]; intros [|v b] HL; try discriminate; [split; reflexivity|].
  cbn [combine existsb fst snd]. rewrite Bool.orb_false_iff, (IH b) by (cbn in HL; lia). rewrite Bool.negb_false_iff, Nat.eqb_eq. split; [intros [-> ->]; reflexivity|].
  intro E. injection E as -> ->. auto.
Qed.

(** ** LatentGraphCRF *)
Section graph.
Variables (nl nf : nat) (pl : per_label) (g : lg_crf) (solve : solver) (cluster : clusterer).
Hypothesis EG : lg_setup nl nf pl = Ok g.
Hypothesis HK : Forall (fun c => (0 < c)%nat) (lg_counts g).
Variable S : list (graph_x * list nat).
Hypothesis HS : Forall (fun p => mat_ok (gx_features (fst p)) /\ mcols (gx_features (fst p)) = nf /\ graph_edges (mrows (gx_features (fst p))) (gx_edges (fst p)) /\
  (0 < mrows (gx_features (fst p)))%nat /\ labelling (mrows (gx_features (fst p))) nl (snd p) /\ exact_solver_on solve (mrows (gx_features (fst p))) (gx_edges (fst p))) S.
Notation T := (lg_task g).
Notation E := (lg_E g).
Notation d := (g_size (lg_graph g)).
Notation m := (lg_lmodel solve cluster g).
Lemma graph_sample p : In p S -> valid_x (lg_graph g) (fst p) /\ (0 < lg_states g)%nat /\ labelling (mrows (gx_features (fst p))) (lg_labels g) (snd p) /\
  exact_solver_on solve (mrows (gx_features (fst p))) (gx_edges (fst p)).
Proof.
  intro Hp. rewrite Forall_forall in HS. destruct (HS p Hp) as [A1 [A2 [A3 [A4 [A5 A6]]]]]. destruct (setup_laid_out _ _ _ _ EG) as [HG [E1 _]].
  split; [exact (setup_valid nl nf pl g EG (fst p) A1 A2 A3)|]. split; [exact (setup_states nl nf pl g EG (snd p) _ A4 HK A5)|]. rewrite E1. auto.
Qed.
Lemma graph_label p h : In p S -> E (fst p) (snd p) h -> labelling (mrows (gx_features (fst p))) (lg_states g) h.
Proof. intros Hp Hh. destruct (graph_sample p Hp) as [_ [_ [A _]]]. apply (explains_labelling _ _ (snd p)); [exact Hh|apply A]. Qed.
Lemma graph_completed_exact : completed_exact (lg_smodel solve g) T E d S.
Proof.
  intros p h Hp Hh. destruct (graph_sample p Hp) as [A1 [A2 [A3 A4]]]. assert (LH := graph_label p h Hp Hh). destruct (setup_laid_out _ _ _ _ EG) as [HG _].
  split; [apply lg_implements; assumption|]. intros w Hw. apply lg_exact_laug; assumption.
Qed.
Lemma graph_latent_implements p : In p S -> latent_implements m T E d (fst p) (snd p).
Proof.
  intros Hp. destruct (graph_sample p Hp) as [A1 [A2 [A3 A4]]]. destruct (setup_laid_out _ _ _ _ EG) as [HG _]. apply lg_latent_implements; assumption.
Qed.
Lemma graph_observed : observed_loss T E S.
Proof. intros p h h' z Hp. exact (proj2 (proj2 (graph_latent_implements p Hp)) h h' z). Qed.
Lemma graph_free : free_completes T E S.
Proof.
  intros p h z Hp Hh Lz L0. assert (LH := graph_label p h Hp Hh). cbn [t_label lg_task] in Lz. unfold lg_E in *.
  assert (Z : label_distance (lg_counts g) h z = 0).
  { apply Qcle_antisym; [exact L0|]. apply hamming_nonneg. intros i _. discriminate. }
  assert (P := hamming_zero (length h) (fun _ => 1) (fun i => owner (lg_counts g) (lab h i)) (fun i => owner (lg_counts g) (lab z i)) ltac:(intros; reflexivity) Z).
  cbv beta in P. assert (LE : length h = length z) by (destruct LH as [-> _]; destruct Lz as [-> _]; reflexivity).
  assert (EO := owner_explains (lg_counts g) z (proj2 Lz)). replace (snd p) with (map (owner (lg_counts g)) z); [exact EO|].
  rewrite <- (explains_map_owner _ _ _ Hh). apply nth_ext with (d := O) (d' := O); [rewrite !map_length; auto|].
  intros i Hi. rewrite map_length in Hi. rewrite !(nth_map_lt (owner (lg_counts g)) _ i O O) by lia. symmetry. apply P. lia.
Qed.
Lemma graph_completes : completes_all m E d S.
Proof.
  intros p w h Hp _ EL. destruct (graph_sample p Hp) as [A1 [A2 [A3 A4]]]. destruct (setup_laid_out _ _ _ _ EG) as [HG _].
  exact (latent_consistent solve g (fst p) (snd p) w h HG (counts_pos g (snd p) HG HK (proj2 A3)) EL).
Qed.
Lemma graph_latent_exact w : length w = d -> (forall p, In p S -> exact_latent m T E w (fst p) (snd p)) -> Forall (latent_exact m T E d w) S.
Proof.
  intros Hw HX. apply Forall_forall. intros p Hp. split; [exact (graph_latent_implements p Hp)|]. split; [exact (HX p Hp)|].
  intros h Hh. exact (proj2 (graph_completed_exact p h Hp Hh) w Hw).
Qed.
Lemma graph_yeq (yeq : list nat -> list nat -> bool) : (forall a b, length a = length b -> yeq a b = true -> a = b) -> completed_yeq T E yeq S.
Proof.
  intros HE p h a b Hp Hh La Lb EQ. assert (a = b). { apply HE; [|exact EQ]. destruct La as [-> _]. destruct Lb as [-> _]. reflexivity. } subst b. auto.
Qed.
Lemma graph_ydiff p h h' : In p S -> E (fst p) (snd p) h -> E (fst p) (snd p) h' -> labels_differ h h' = false -> h = h'.
Proof.
  intros Hp H1 H2 D. apply differ_same; [|exact D]. rewrite (explains_length _ _ _ H1), (explains_length _ _ _ H2). reflexivity.
Qed.
End graph.

Lemma one_minus a b : 0 < b -> 0 <= a -> a <= b -> 0 <= 1 - a / b /\ 1 - a / b <= 1 /\ (1 - a / b = 1 <-> a = 0).
Proof.
  intros Hb Ha Hab. assert (Hi := Qcinv_pos b Hb). assert (NZ : b <> 0) by (intro Z; rewrite Z in Hb; discriminate Hb).
  assert (Q1 : a / b <= 1). { replace 1 with (b / b) by (field; exact NZ). unfold Qcdiv. apply Qcmult_le_compat_r; [exact Hab|apply Qclt_le_weak; exact Hi]. }
  assert (Q2 : 0 <= a / b). { unfold Qcdiv. apply Qcmult_nonneg; [exact Ha|apply Qclt_le_weak; exact Hi]. }
  split; [set (q := a / b) in *; clearbody q; qclra|]. split; [set (q := a / b) in *; clearbody q; qclra|]. split.
  - intro H. assert (Z : a / b = 0) by (set (q := a / b) in *; clearbody q; qclra). replace a with (a / b * b) by (field; exact NZ). rewrite Z. ring.
  - intros ->. unfold Qcdiv. ring.
Qed.
Section score.
Variables (nl nf : nat) (pl : per_label) (g : lg_crf) (solve : solver) (cluster : clusterer).
Hypothesis EG : lg_setup nl nf pl = Ok g.
Notation m := (lg_lmodel solve cluster g).
Lemma base_loss_value n y y' : labelling n nl y -> labelling n nl y' -> lg_base_loss g y y' = Ok (hamming n (fun _ => 1) (lab y) (lab y')) /\ max_loss (lg_cw g) y = Ok (ofN n).
Proof.
  intros H1 H2. destruct (setup_laid_out _ _ _ _ EG) as [HG [E1 _]]. unfold lg_base_loss, lg_cw. rewrite E1.
  split.
  - rewrite (loss_weighted n nl (repeat 1 nl) y y'); [|apply repeat_length|exact H1|apply H2]. f_equal. unfold hamming. apply sumn_ext. intros i Hi.
    destruct (lab y i =? lab y' i)%nat; [reflexivity|]. apply get1_ones. destruct H1 as [L F]. rewrite Forall_forall in F. apply F. apply nth_In. lia.
  - rewrite (max_loss_weighted n nl (repeat 1 nl) y); [|apply repeat_length|exact H1]. f_equal.
    rewrite (sumn_ext n _ (fun _ => 1)).
    + clear. induction n as [|n IH]; [rewrite sumn_O, ofN_0; reflexivity|]. rewrite sumn_S, IH, ofN_S. ring.
    + intros i Hi. apply get1_ones. destruct H1 as [L F]. rewrite Forall_forall in F. apply F. apply nth_In. lia.
Qed.
Lemma predict_value w Xs (Ys : list (list nat)) : Forall2 (fun x y => exists h, g_inference solve (lg_graph g) x w = Ok h /\ labelling (length y) (lg_states g) h) Xs Ys ->
  exists H, cccp_predict_latent m w Xs = Ok H /\ cccp_predict m w Xs = Ok (map (map (owner (lg_counts g))) H) /\ Forall2 (fun y h => labelling (length y) (lg_states g) h) Ys H.
Proof.
  destruct (setup_laid_out _ _ _ _ EG) as [HG _].
  intro HF. unfold cccp_predict, cccp_predict_latent. cbn [lg_lmodel lm_s lg_smodel sm_inference lm_label].
  induction HF as [|x y Xs Ys [h [E1 L1]] HF IH]; [exists []; cbn; auto|]. destruct IH as [H [A1 [A2 A3]]]. rewrite A1 in A2. cbn [bind] in A2.
  cbn [mapM]. rewrite E1. cbn [bind]. rewrite A1. cbn [bind]. exists (h :: H). split; [reflexivity|]. split; [|constructor; assumption].
  cbn [mapM]. rewrite (label_ok g HG h (proj2 L1)). cbn [bind]. rewrite A2. reflexivity.
Qed.
Lemma losses_value : forall (Ys P : list (list nat)), Forall2 (fun y p => labelling (length y) nl y /\ labelling (length y) nl p) Ys P ->
  exists ls, mapM (fun q => lg_base_loss g (fst q) (snd q)) (combine Ys P) = Ok ls /\ mapM (max_loss (lg_cw g)) Ys = Ok (map (fun y => ofN (length y)) Ys) /\
  0 <= lsum ls /\ lsum ls <= ofN (list_sum (map (@length nat) Ys)) /\ lsum (map (fun y => ofN (length y)) Ys) = ofN (list_sum (map (@length nat) Ys)) /\ (lsum ls = 0 <-> P = Ys).
Proof.
  intros Ys P HF. induction HF as [|y p Ys P [L1 L2] HF IH].
  - exists []. cbn [combine mapM map list_sum fold_right lsum]. rewrite ofN_0. repeat split; try reflexivity; try apply Qcle_refl.
  - destruct IH as [ls [A1 [A2 [A3 [A4 [A5 A6]]]]]]. destruct (base_loss_value (length y) y p L1 L2) as [B1 B2].
    cbn [combine mapM fst snd]. rewrite B1, B2. cbn [bind]. rewrite A1, A2. cbn [bind]. eexists. split; [reflexivity|]. split; [reflexivity|].
    assert (N0 : 0 <= hamming (length y) (fun _ => 1) (lab y) (lab p)) by (apply hamming_nonneg; intros; discriminate).
    assert (N1 : hamming (length y) (fun _ => 1) (lab y) (lab p) <= ofN (length y)).
    { eapply Qcle_trans; [apply hamming_le; intros; discriminate|]. cbv beta. clear. set (n := length y). clearbody n. induction n as [|n IH]; [rewrite sumn_O, ofN_0; apply Qcle_refl|].
      rewrite sumn_S, ofN_S. set (a := sumn n (fun _ => 1)) in *. set (b := ofN n) in *. clearbody a b. qclra. }
    assert (N2 : hamming (length y) (fun _ => 1) (lab y) (lab p) = 0 <-> p = y).
    { split; [|intros ->; apply hamming_refl]. intro Z. assert (Q := hamming_zero (length y) (fun _ => 1) (lab y) (lab p) ltac:(intros; reflexivity) Z).
      apply nth_ext with (d := O) (d' := O); [apply L2|]. intros i Hi. symmetry. apply Q. destruct L2 as [L2 _]. rewrite <- L2. exact Hi. }
    set (hm := hamming (length y) (fun _ => 1) (lab y) (lab p)) in *. clearbody hm.
    change (lsum (hm :: ls)) with (hm + lsum ls). cbn [map list_sum fold_right]. change (fold_right Nat.add O (map (@length nat) Ys)) with (list_sum (map (@length nat) Ys)).
    change (lsum (ofN (length y) :: map (fun y0 => ofN (length y0)) Ys)) with (ofN (length y) + lsum (map (fun y0 : list nat => ofN (length y0)) Ys)).
    rewrite A5, ofN_plus. set (t := lsum ls) in *. clearbody t. set (u := ofN (length y)) in *. set (v := ofN (list_sum (map (@length nat) Ys))) in *. clearbody u v.
    split; [qclra|]. split; [qclra|]. split; [reflexivity|]. split.
    + intro Z. assert (Z1 : hm = 0) by qclra. assert (Z2 : t = 0) by qclra. apply N2 in Z1. apply A6 in Z2. congruence.
    + intro Z. injection Z as -> ->. rewrite (proj2 N2 eq_refl), (proj2 A6 eq_refl). ring.
Qed.
Lemma score_value w Xs (Ys : list (list nat)) :
  Forall2 (fun x y => exists h, g_inference solve (lg_graph g) x w = Ok h /\ labelling (length y) (lg_states g) h) Xs Ys ->
  Forall (Forall (fun l => (l < nl)%nat)) Ys -> (0 < list_sum (map (@length nat) Ys))%nat ->
  exists P s, cccp_predict m w Xs = Ok P /\ cccp_score m w Xs Ys = Ok s /\ 0 <= s /\ s <= 1 /\ (s = 1 <-> P = Ys).
Proof.
  intros HF HY HP. destruct (predict_value w Xs Ys HF) as [H [_ [E2 E3]]]. destruct (setup_laid_out _ _ _ _ EG) as [HG [EL _]].
  set (P := map (map (owner (lg_counts g))) H) in *.
  assert (F : Forall2 (fun y p => labelling (length y) nl y /\ labelling (length y) nl p) Ys P).
  { unfold P. clear - E3 HY HG EL. induction E3 as [|y h Ys H L1 E3 IH]; [constructor|]. apply Forall_cons_iff in HY. destruct HY as [Y1 Y2]. cbn [map]. constructor; [|exact (IH Y2)].
    split; [split; [reflexivity|exact Y1]|]. rewrite <- EL. exact (owners_labelling g HG _ h L1). }
  destruct (losses_value Ys P F) as [ls [A1 [A2 [A3 [A4 [A5 A6]]]]]].
  set (N := list_sum (map (@length nat) Ys)) in *. assert (PN := ofN_pos N HP).
  exists P, (1 - lsum ls / ofN N). split; [exact E2|]. split.
  - unfold cccp_score. rewrite E2. cbn [bind lg_lmodel lm_base_loss lm_max_loss]. rewrite A1. cbn [bind]. rewrite A2. cbn [bind]. rewrite A5.
    destruct (Qceqb_spec (ofN N) 0) as [Z|_]; [exfalso; rewrite Z in PN; discriminate PN|reflexivity].
  - destruct (one_minus (lsum ls) (ofN N) PN A3 A4) as [B1 [B2 B3]]. split; [exact B1|]. split; [exact B2|]. rewrite B3. exact A6.
Qed.
End score.
