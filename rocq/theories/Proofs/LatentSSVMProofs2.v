(** LatentSSVM over the cutting-plane learners: re-derived constraints, kept caches, near-optimality
    for the latent objective. *)
From Coq Require Import ZArith.
From Verif Require Import Model.LatentSSVM Proofs.Arrays Proofs.LossProofs Proofs.LearnerProofs Proofs.QPProofs Proofs.QPProofs2 Proofs.NSlackProofs Proofs.NSlackProofs2 Proofs.NSlackProofs3
  Proofs.NSlackProofs4 Proofs.OneSlackCache Proofs.OneSlackProofs Proofs.OneSlackProofs2 Proofs.LatentProofs4 Proofs.LatentSSVMProofs Spec.LatentSSVMSpec.

Lemma F2_combine {X Y Z} (R : X * Y -> Z -> Prop) : forall Xs Ys H, length Xs = length Ys -> Forall2 R (combine Xs Ys) H -> length Xs = length H.
Proof.
  intros Xs Ys H HL HF. apply Forall2_len in HF. rewrite <- HF, combine_length. lia.
Qed.

Section generic.
Context {X Y : Type} (T : task X Y) (E : X -> Y -> Y -> Prop) (d : nat).
Lemma completes_in Xs Ys H x h : completes E Xs Ys H -> In (x, h) (combine Xs H) -> exists y, In (x, y) (combine Xs Ys) /\ E x y h.
Proof.
  unfold completes. revert Ys H. induction Xs as [|x0 Xs IH]; intros Ys H HC HI; [destruct HI|].
  destruct Ys as [|y Ys]; [apply F2_nil in HC; subst H; destruct HI|]. cbn [combine] in HC. apply F2_left in HC. destruct HC as [h0 [H' [-> [C1 C2]]]].
  cbn [combine] in *. destruct HI as [HI|HI].
  - injection HI as <- <-. exists y. split; [left; reflexivity|exact C1].
  - destruct (IH Ys H' C2 HI) as [y0 [A B]]. exists y0. split; [right; exact A|exact B].
Qed.
Lemma completed_oracle s Xs Ys H : completed_exact s T E d (combine Xs Ys) -> completes E Xs Ys H -> oracle_exact s T d (combine Xs H).
Proof.
  intros HE HC [x h] HI. destruct (completes_in Xs Ys H x h HC HI) as [y [A B]]. exact (HE (x, y) h A B).
Qed.
Lemma completed_yeq_ok yeq Xs Ys H : completed_yeq T E yeq (combine Xs Ys) -> completes E Xs Ys H -> yeq_ok T yeq (combine Xs H).
Proof.
  intros HE HC [x h] a b HI. destruct (completes_in Xs Ys H x h HC HI) as [y [A B]]. exact (HE (x, y) h a b A B).
Qed.
(** a latent hinge is an under-estimate the n-slack learner can be charged with *)
Lemma latent_under w x y h v : E x y h -> (forall h h' z, E x y h -> E x y h' -> t_label T x z -> t_loss T h z = t_loss T h' z) ->
  (forall z, t_label T x z -> t_loss T h z <= 0 -> E x y z) -> (forall h, E x y h -> t_label T x h) ->
  is_latent_hinge T E w x y v -> under_hinge T w (x, h) v.
Proof.
  intros Hh HO HZ HL [h0 [[B1 B2] HV]] yh Ly Hy. cbn [fst snd] in *. split.
  - apply (latent_le_hinge T E w x y h v _ Hh HO); [|exact Hy]. exists h0. split; [split; assumption|exact HV].
  - intro L0. assert (Ez := HZ yh Ly L0). assert (A := B2 yh Ez). destruct HV as [[z [Lz <-]] _]. destruct Hy as [_ Hy]. specialize (Hy z Lz).
    unfold margin in *. rewrite (HO h0 h z B1 Hh Lz). qclra.
Qed.
Lemma latent_under_all w : forall Xs Ys H gs, length Xs = length Ys -> completes E Xs Ys H -> observed_loss T E (combine Xs Ys) -> free_completes T E (combine Xs Ys) ->
  (forall p h, In p (combine Xs Ys) -> E (fst p) (snd p) h -> t_label T (fst p) h) ->
  latent_hinges T E w (combine Xs Ys) gs -> Forall2 (under_hinge T w) (combine Xs H) gs.
Proof.
  induction Xs as [|x Xs IH]; intros [|y Ys] H gs HL HC HO HZ HB HG; try discriminate HL.
  - apply F2_nil in HC. apply F2_nil in HG. subst. constructor.
  - unfold completes, latent_hinges in *. cbn [combine] in *. apply F2_left in HC. destruct HC as [h [H' [-> [C1 C2]]]].
    apply F2_left in HG. destruct HG as [g [gs' [-> [G1 G2]]]]. cbn [combine fst snd] in *. constructor.
    + apply (latent_under w x y h g C1); auto.
      * intros h1 h2 z. exact (HO (x, y) h1 h2 z (or_introl eq_refl)).
      * intros z. exact (HZ (x, y) h z (or_introl eq_refl) C1).
      * intros h1. exact (HB (x, y) h1 (or_introl eq_refl)).
    + apply (IH Ys H' gs'); auto.
      * intros q h1 h2 z Hq. apply (HO q). right. exact Hq.
      * intros q h1 z Hq. apply (HZ q). right. exact Hq.
      * intros q h1 Hq. apply (HB q). right. exact Hq.
Qed.
Lemma completed_at_completes (m : lmodel X Y) w Xs Ys H : completes_all m E d (combine Xs Ys) -> length w = d -> completed_at m w Xs Ys H -> completes E Xs Ys H.
Proof.
  unfold completes_all, completed_at, completes. intros HA Hw HC. induction HC as [|p h l H HP HF IH]; constructor.
  - apply (HA p w h); auto. left. reflexivity.
  - apply IH. intros q w0 h0 Hq. apply HA. right. exact Hq.
Qed.

(** ** re-derived constraints *)
Lemma adjust_sample_ok s w x h h' sample : implements s T d x h' -> length w = d -> Forall (valid_con T (x, h)) sample ->
  exists cs, adjust_sample s w x h' sample = Ok cs /\ Forall (valid_con T (x, h')) cs /\ map (fun c => fst (fst c)) cs = map (fun c => fst (fst c)) sample.
Proof.
  intros HI Hw HV. unfold adjust_sample. induction HV as [|[[yh dl] ls] sample [L _] HV IH]; [exists []; cbn; auto|].
  destruct IH as [cs [A1 [A2 A3]]]. cbn [mapM fst snd]. cbn [fst] in L.
  rewrite (find_constraint_value s T d x h' w (Some yh) yh HI Hw L eq_refl). cbn [bind]. rewrite A1. cbn [bind].
  eexists. split; [reflexivity|]. split; [|cbn [map fst]; rewrite A3; reflexivity]. constructor; [|exact A2].
  unfold valid_con. cbn [fst snd]. auto.
Qed.
Lemma adjust_ok s w : length w = d -> forall Xs H H' cs, length Xs = length H -> length Xs = length H' -> oracle_ok s T d (combine Xs H') ->
  wvalid T (combine Xs H) cs ->
  exists cs', adjust_constraints s w Xs H' cs = Ok cs' /\ wvalid T (combine Xs H') cs' /\
    map (map (fun c => fst (fst c))) cs' = map (map (fun c => fst (fst c))) cs.
Proof.
  intros Hw Xs H H' cs L1 L2 HO HV.
  assert (A : exists cs', mapM (fun q => adjust_sample s w (fst (snd q)) (snd (snd q)) (fst q)) (combine cs (combine Xs H')) = Ok cs' /\ wvalid T (combine Xs H') cs' /\
    map (map (fun c => fst (fst c))) cs' = map (map (fun c => fst (fst c))) cs).
  { unfold wvalid in *. revert H H' cs L1 L2 HO HV. induction Xs as [|x Xs IH]; intros [|h H] [|h' H'] cs L1 L2 HO HV; try discriminate.
    - apply F2_nil in HV. subst cs. exists []. cbn. auto.
    - cbn [combine] in *. apply F2_left in HV. destruct HV as [c [cs0 [-> [V1 V2]]]].
      destruct (IH H H' cs0 ltac:(cbn in L1; lia) ltac:(cbn in L2; lia) ltac:(intros q Hq; apply HO; right; exact Hq) V2) as [r [A1 [A2 A3]]].
      destruct (adjust_sample_ok s w x h h' c (proj1 (HO (x, h') (or_introl eq_refl))) Hw V1) as [c' [B1 [B2 B3]]].
      cbn [combine mapM fst snd]. rewrite B1. cbn [bind]. rewrite A1. cbn [bind]. exists (c' :: r). split; [reflexivity|].
      split; [constructor; assumption|]. cbn [map]. rewrite B3, A3. reflexivity. }
  destruct A as [cs' [A1 [A2 A3]]]. exists cs'. unfold adjust_constraints. rewrite A1. cbn [bind].
  split; [|split; assumption]. unfold wvalid in A2. apply Forall2_len in A2. rewrite combine_length in A2.
  replace (length Xs - length cs')%nat with O by lia. cbn [repeat]. rewrite app_nil_r. reflexivity.
Qed.
End generic.

(** ** n-slack base learner *)
Section nslack.
Context {X Y : Type} (T : task X Y) (E : X -> Y -> Y -> Prop) (d : nat) (yeq : Y -> Y -> bool) (solve : qp_solver) (prm : ns_params).
Hypothesis HC : 0 <= ns_C prm.
Lemma fit_state Xs Ys m sw old o st curve primal reason : length Xs = length Ys -> qp_sound solve -> sm_size m = d ->
  oracle_ok m T d (combine Xs Ys) -> (forall m', sw = Some m' -> oracle_ok m' T d (combine Xs Ys)) ->
  match old with None => True | Some cs => wvalid T (combine Xs Ys) cs end ->
  ns_fit yeq solve prm m sw Xs Ys old o = Ok (st, curve, primal, reason) ->
  length (st_w st) = d /\ wvalid T (combine Xs Ys) (st_cons st).
Proof.
  intros HXY HS Hd HO HOS HCS H. unfold ns_fit in H.
  apply bind_ok in H. destruct H as [[[st1 cu1] pr1] [E0 H]].
  apply bind_ok in H. destruct H as [[[[[st' cu] pr] re] m'] [EL H]].
  apply bind_ok in H. destruct H as [u [EN H]]. apply bind_ok in H. destruct H as [p [EP H]].
  apply bind_ok in H. destruct H as [obj [EO H]]. injection H as <- <- <- <-.
  assert (HF := feat_len_ok T d m Xs Ys HO). assert (HLs := label_self_ok T d m Xs Ys HO).
  set (Q := fun (w : list Qc) (_ : Qc) (groups : list (list (list Qc * Qc))) => True).
  assert (HQ : forall (cs : list (list (ncon Y))) active w obj cs' active', Forall (fun c => length (fst c) = d) (concat (pairs cs)) ->
     solve_n_slack_qp solve prm (length Xs) cs active = Ok (w, obj, cs', active') ->
     length w = d /\ Q w obj (pairs cs) /\ Forall2 (fun s s' => incl s' s) cs cs').
  { intros cs active w ob cs' active' HFc Es. destruct (solve_sound solve prm _ d _ _ _ _ _ _ HS HC HFc Es) as [A [B [C0 D]]]. repeat split; auto. }
  assert (I0 : NSlackProofs2.inv T d (combine Xs Ys) Q st1).
  { destruct old as [cs|]; [|injection E0 as <- _ _; exact (NSlackProofs3.start_inv T d m Xs Ys HXY Hd Q)].
    destruct o as [o|]; [|discriminate]. apply bind_ok in E0. destruct E0 as [[[[w1 ob1] cs1] ac1] [E1 E0]]. injection E0 as <- _ _.
    assert (HFc := wvalid_len T d _ HF (fun p Hp => proj1 (HLs p Hp)) cs HCS).
    destruct (HQ _ _ _ _ _ _ HFc E1) as [A1 [A2 A3]]. split; [exact A1|]. split.
    - cbn [st_cons]. exact (wvalid_incl T _ cs cs1 HCS A3).
    - cbn [st_objective st_cons st_w]. intros o' Eo. exists cs. split; [exact HCS|]. split; [exact A3|exact I]. }
  assert (LI := NSlackProofs2.loop_inv T d yeq solve prm _ (length Xs) HF (fun p Hp => proj1 (HLs p Hp)) Q HQ
                  (ns_max_iter prm) O m sw st1 cu1 pr1 _ HO HOS I0 EL).
  destruct LI as [[I1 [I2 _]] _]. auto.
Qed.

Variables (m : lmodel X Y) (Xs : list X) (Ys : list Y) (ydiff : Y -> Y -> bool).
Notation S0 := (combine Xs Ys).
Notation bl := (nslack_base yeq solve prm (lm_s m)).
Local Notation ns_eps := (LatentSSVMSpec.ns_eps prm (length Xs)).
Hypothesis HL : length Xs = length Ys.
Hypothesis HS : qp_exact solve.
Hypothesis HN : ns_neg prm = None.
Hypothesis Hd : sm_size (lm_s m) = d.
Hypothesis HE : completed_exact (lm_s m) T E d S0.
Hypothesis HY : completed_yeq T E yeq S0.
Hypothesis HO : observed_loss T E S0.
Hypothesis HZ : free_completes T E S0.
Hypothesis HA : completes_all m E d S0.

Lemma nslack_below H old o st curve primal : completes E Xs Ys H ->
  match old with None => True | Some cs => wvalid T (combine Xs H) cs end ->
  ns_fit yeq solve prm (lm_s m) None Xs H old o = Ok (st, curve, primal, NoNewConstraint) ->
  latent_below T E d (ns_C prm) ns_eps Xs Ys H (st_w st).
Proof.
  intros HH HW EF gs v hs HG Hv Hhs. assert (LH := F2_combine _ Xs Ys H HL HH).
  assert (U : Forall2 (under_hinge T (st_w st)) (combine Xs H) gs).
  { apply (latent_under_all T E (st_w st) Xs Ys H gs); auto. intros p h Hp Hh. apply (HE p h Hp Hh). }
  pose proof (fit_near_gen T d yeq solve prm Xs H HC LH (lm_s m) None old o st curve primal HS HN Hd
    (completed_oracle T E d _ Xs Ys H HE HH) (fun m' Em => ltac:(discriminate Em))
    (completed_yeq_ok T E yeq Xs Ys H HY HH) HW EF gs v hs U Hv Hhs) as B.
  unfold ns_eps. rewrite Qcplus_assoc. exact B.
Qed.
Definition ns_good (H : list Y) (b : ns_state Y * list Qc * list Qc * ns_stop) : Prop :=
  completes E Xs Ys H /\ length (bl_w bl b) = d /\ wvalid T (combine Xs H) (st_cons (fst (fst (fst b)))) /\
  (snd b = NoNewConstraint -> latent_below T E d (ns_C prm) ns_eps Xs Ys H (bl_w bl b)).
Lemma nslack_good H old o b : completes E Xs Ys H -> match old with None => True | Some cs => wvalid T (combine Xs H) cs end ->
  ns_fit yeq solve prm (lm_s m) None Xs H old o = Ok b -> ns_good H b.
Proof.
  intros HH HW EF. destruct b as [[[st cu] pr] re]. assert (LH := F2_combine _ Xs Ys H HL HH).
  destruct (fit_state Xs H (lm_s m) None old o st cu pr re LH (qp_exact_sound _ HS) Hd (exact_is_ok _ _ _ _ (completed_oracle T E d _ Xs Ys H HE HH))
    (fun m' Em => ltac:(discriminate Em)) HW EF) as [A1 A2].
  split; [exact HH|]. split; [exact A1|]. split; [exact A2|]. cbn [snd]. intros ->. exact (nslack_below H old o st cu pr HH HW EF).
Qed.
Lemma nslack_trace k Hi H0 l stop : cccp_fit ydiff m bl Xs Ys k Hi = Ok (H0, l, stop) -> completes E Xs Ys H0 ->
  forall H b, In (H, b) l -> ns_good H b.
Proof.
  intros EF HH0. apply (trace_inv ydiff m bl Xs Ys ns_good k Hi H0 l stop EF).
  - intros b Eb. exact (nslack_good H0 None None b HH0 I Eb).
  - intros H b H' b' [G1 [G2 [G3 _]]] [I1 [_ [cs [I2 I3]]]]. cbn [fst snd] in *.
    assert (HH' := completed_at_completes E d m _ Xs Ys H' HA G2 I1).
    destruct b as [[[st cu] pr] re]. cbn [nslack_base bl_cons bl_refit bl_w fst snd] in *. destruct I2 as [c [I2 ->]].
    destruct (adjust_ok T d (lm_s m) (st_w st) G2 Xs H H' (st_cons st) (F2_combine _ Xs Ys H HL G1) (F2_combine _ Xs Ys H' HL HH')
      (exact_is_ok _ _ _ _ (completed_oracle T E d _ Xs Ys H' HE HH')) G3) as [c' [A1 [A2 _]]].
    assert (c' = c) by congruence. subst c'. exact (nslack_good H' (Some c) _ b' HH' A2 I3).
Qed.
End nslack.

(** ** one-slack base learner *)
Section oneslack.
Context {X Y : Type} (T : task X Y) (E : X -> Y -> Y -> Prop) (d : nat) (ceq : Y -> Y -> res bool) (solve : qp_solver) (prm : os_params).
Variables (m : lmodel X Y) (bm : bmodel X Y) (Xs : list X) (Ys : list Y) (ydiff : Y -> Y -> bool).
Notation S0 := (combine Xs Ys).
Notation bl := (oneslack_base ceq solve prm bm).
Local Notation os_eps := (LatentSSVMSpec.os_eps prm (length Xs)).
Hypothesis HN0 : (0 < length Xs)%nat.
Hypothesis HC : 0 <= o_C prm.
Hypothesis HT : 0 <= o_tol prm.
Hypothesis HL : length Xs = length Ys.
Hypothesis HS : qp_exact solve.
Hypothesis HN : o_neg prm = None.
Definition bm_good (b : bmodel X Y) : Prop :=
  (forall H, completes E Xs Ys H -> batch_exact b T d Xs H) /\ (o_cache prm = O \/ sm_rescale (bm_s b) = false).
Hypothesis HB : bm_good bm.
Hypothesis HO : observed_loss T E S0.
Hypothesis HA : completes_all m E d S0.

(** cached results stay valid when the completion changes *)
Lemma cache_kept : forall c H H', completes E Xs Ys H -> completes E Xs Ys H' -> cache_valid T Xs H c -> cache_valid T Xs H' c.
Proof.
  intros [c|] H H' H1 H2 HV; [|exact I]. cbn [cache_valid] in *. unfold completes in *. revert HL HO c H H' H1 H2 HV. clear. revert Ys.
  induction Xs as [|x xs IH]; intros [|y ys] HL HO c H H' H1 H2 HV; try discriminate HL.
  - apply F2_nil in H1. apply F2_nil in H2. subst. exact HV.
  - cbn [combine] in *. apply F2_left in H1. destruct H1 as [h [Ht [-> [A1 A2]]]]. apply F2_left in H2. destruct H2 as [h' [Ht' [-> [B1 B2]]]].
    cbn [combine] in *. apply F2_left in HV. destruct HV as [s [c' [-> [V1 V2]]]]. constructor.
    + apply Forall_impl with (2 := V1). intros e [L [F Ls]]. cbn [fst snd] in *. split; [exact L|]. split; [exact F|]. cbn [fst snd].
      rewrite Ls. exact (HO (x, y) h h' (snd e) (or_introl eq_refl) A1 B1 L).
    + apply (IH ys ltac:(cbn in HL; lia) ltac:(intros q h1 h2 z Hq; apply (HO q); right; exact Hq) c' Ht Ht'); assumption.
Qed.
Definition os_good (H : list Y) (b : os_state Y * os_stop) : Prop :=
  completes E Xs Ys H /\ length (bl_w bl b) = d /\ cache_valid T Xs H (o_icache (fst b)) /\
  (snd b = OSNoConstraint -> In (vzero d, 0) (o_cons (fst b)) -> latent_below T E d (o_C prm) os_eps Xs Ys H (bl_w bl b)).
Lemma oneslack_good H ws b : completes E Xs Ys H -> start_ok T d Xs H ws -> os_fit ceq solve prm bm None Xs H ws = Ok b -> os_good H b.
Proof.
  intros HH HW EF. destruct b as [st re]. destruct HB as [HB1 HB2].
  assert (HU : usable T d prm Xs H bm). { split; [apply (HB1 H HH)|exact HB2]. }
  assert (HUS : forall b, None = Some b -> usable T d prm Xs H b). { intros b Eb. discriminate Eb. }
  destruct (fit1_lower_bound_gen T d ceq solve prm Xs H ws bm None st re HN0 HC (qp_exact_sound _ HS) HU HUS HW EF) as [A1 [_ [_ [_ [A2 _]]]]].
  split; [exact HH|]. split; [exact A1|]. split; [exact A2|]. cbn [fst snd]. intros -> HG gs v hs G1 Hv Hhs.
  assert (HBS' : forall b, None = Some b -> batch_exact b T d Xs H /\ (o_cache prm = O \/ sm_rescale (bm_s b) = false)).
  { intros b Eb. discriminate Eb. }
  destruct (fit1_near_optimal_gen T d ceq solve prm Xs H ws bm None st HN0 HC HT (qp_exact_sound _ HS) (HB1 H HH) HB2 HBS' HW EF) as [h1 [v1 [B1 [_ [_ [_ B2]]]]]].
  specialize (B2 HS HN HG v hs Hv Hhs). unfold os_eps. rewrite Qcplus_assoc.
  eapply Qcle_trans; [|exact B2]. apply primal_mono; [exact HC|]. exact (latent_le_completed T E (o_w st) Xs Ys H gs h1 HL HH HO G1 B1).
Qed.
Lemma oneslack_trace k Hi H0 l stop : cccp_fit ydiff m bl Xs Ys k Hi = Ok (H0, l, stop) -> completes E Xs Ys H0 ->
  forall H b, In (H, b) l -> os_good H b.
Proof.
  intros EF HH0. apply (trace_inv ydiff m bl Xs Ys os_good k Hi H0 l stop EF).
  - intros b Eb. exact (oneslack_good H0 Cold b HH0 I Eb).
  - intros H b H' b' [G1 [G2 [G3 _]]] [I1 [_ [cs [I2 I3]]]]. cbn [fst snd] in *.
    assert (HH' := completed_at_completes E d m _ Xs Ys H' HA G2 I1).
    destruct b as [st re]. cbn [oneslack_base bl_cons bl_refit bl_w fst snd] in *.
    eapply oneslack_good; [exact HH'| |exact I3]. cbn [start_ok oa_icache]. exact (cache_kept _ H H' G1 HH' G3).
Qed.
End oneslack.
