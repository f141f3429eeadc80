From Verif Require Import Model.OneSlack Spec.OneSlackSpec Proofs.Arrays Proofs.LossProofs Proofs.MaxProdProofs Proofs.CRFProofs Proofs.LearnerProofs
  Proofs.QPProofs Proofs.QPProofs2 Proofs.NSlackProofs Proofs.NSlackProofs2 Proofs.NSlackProofs4 Proofs.NSlackProofs5 Proofs.OneSlackQP Proofs.OneSlackPrune
  Proofs.OneSlackCache Proofs.OneSlackProofs Proofs.OneSlackProofs2 Proofs.OneSlackProofs3.

Lemma vstack_ok (cs : list ocon) d : cs <> [] -> Forall (fun c => length (fst c) = d) cs -> exists M, vstack (map fst cs) = Ok M.
Proof.
  intros HN HF. destruct cs as [|c cs]; [congruence|]. unfold vstack. cbn [map].
  assert (E : forallb (fun v => (length v =? length (fst c))%nat) (fst c :: map fst cs) = true).
  { apply forallb_forall. intros v Hv. change (In v (map fst (c :: cs))) in Hv. apply in_map_iff in Hv. destruct Hv as [c' [<- Hc']].
    rewrite Forall_forall in HF. rewrite (HF c' Hc'), (HF c (or_introl eq_refl)). apply Nat.eqb_refl. }
  rewrite E. eauto.
Qed.
Lemma last_of_ok l : l <> [] -> exists v, last_of l = Ok v.
Proof.
  intro H. unfold last_of. destruct (rev l) as [|v r] eqn:E; [|eauto]. exfalso. apply H. apply (f_equal (@rev _)) in E. rewrite rev_involutive in E. exact E.
Qed.
Lemma keepi_Forall {A} (P : A -> Prop) f (l : list A) : Forall P l -> forall k, Forall P (keepi f k l).
Proof. intros H k. rewrite Forall_forall in *. intros x Hx. apply H. eapply keepi_incl; eauto. Qed.
Lemma record_nonneg a : Forall (fun v => 0 <= v) a -> forall alphas, Forall (Forall (fun v => 0 <= v)) alphas ->
  Forall (Forall (fun v => 0 <= v)) (record_duals alphas a).
Proof.
  intro HA. induction HA as [|v a HV HA IH]; intros alphas H; destruct alphas as [|h r]; cbn [record_duals]; auto.
  apply Forall_cons_iff in H. destruct H as [H1 H2]. constructor; auto. apply Forall_app. auto.
Qed.

Section total.
Context {X Y : Type} (T : task X Y) (d : nat) (ceq : Y -> Y -> res bool) (solve : qp_solver) (prm : os_params).
Variables (Xs : list X) (Ys : list Y).
Notation SS := (combine Xs Ys).
Hypothesis HN : (0 < length Xs)%nat.
Hypothesis HC : 0 <= o_C prm.
Hypothesis HNeg : o_neg prm = None.
Hypothesis HBr : o_break prm = false.
Hypothesis HTh : o_window prm = O \/ (0 <= o_threshold prm /\ o_threshold prm <= 1).
Hypothesis HS : qp_sound solve.
Hypothesis HST : forall (cs : list ocon) reg p, one_slack_problem (o_C prm) None (length Xs) (map fst cs) (map snd cs) reg = Ok p -> solve p <> None.
Hypothesis HE : o_cache prm = O \/ forall a b, exists r, ceq a b = Ok r.
Hypothesis G : good T d Xs Ys.
Let gt := feat_sum T d Xs Ys.

Definition cache_ok (c : option (icache Y)) : Prop :=
  match c with None => True | Some l => Forall2 (fun p s => s <> [] /\ Forall (valid_entry T p) s) SS l end.
Definition calm0 (st : os_state Y) : Prop :=
  length (o_w st) = d /\ valid_cons T d Xs Ys (o_cons st) /\ length (o_cons st) = length (o_alphas st) /\ o_cons st <> [] /\
  Forall (Forall (fun v => 0 <= v)) (o_alphas st) /\ cache_ok (o_icache st).
Definition calm (st : os_state Y) : Prop := calm0 st /\ (o_icache st = None \/ (o_curve st <> [] /\ o_primal st <> [])).

Lemma step_total cached c Yh st : calm0 st -> mean_con T d Xs Ys Yh c ->
  exists st', os_step solve prm (length Xs) cached c st = Ok st' /\ calm st' /\ o_obj st' <> None.
Proof.
  intros [K1 [K2 [K3 [K4 [K5 K6]]]]] HM. unfold os_step.
  assert (CL := con_length T d Xs Ys G Yh c HM). rewrite np_dot_ok by congruence. cbn [bind].
  assert (VC : valid_cons T d Xs Ys (o_cons st ++ [c])). { apply Forall_app. split; auto. constructor; eauto. }
  set (cs := o_cons st ++ [c]) in *. assert (HF := valid_len T d Xs Ys G _ VC).
  assert (NE : cs <> []) by (unfold cs; destruct (o_cons st); discriminate).
  destruct (vstack_ok cs d NE HF) as [M EM].
  unfold solve_1_slack_qp. 
  assert (EP : one_slack_problem (o_C prm) None (length Xs) (map fst cs) (map snd cs) 0 <> Err ValueError /\ exists p, one_slack_problem (o_C prm) None (length Xs) (map fst cs) (map snd cs) 0 = Ok p).
  { unfold one_slack_problem. rewrite EM. cbn [bind neg_rows]. split; [discriminate|eauto]. }
  destruct EP as [_ [p EP]]. rewrite HNeg. unfold run_qp. rewrite EP. cbn [bind].
  destruct (solve p) as [[a v]|] eqn:ES; [|exfalso; eapply HST; eauto]. cbn [bind fst snd].
  destruct (HS _ _ _ ES) as [FE VA]. destruct (oneslack_weak d _ _ _ _ _ _ a (Qcle_refl 0) HF EP FE) as [w [EW [Lw _]]].
  destruct (oslack_feasible d _ _ _ _ _ _ a HF EP) as [[EP' _] _]. clear EP. rename EP' into EP.
  specialize (EP FE). destruct EP as [La [Na _]].
  assert (NA : Forall (fun v => 0 <= v) a).
  { apply Forall_forall. intros x Hx. apply In_nth_error in Hx. destruct Hx as [i Hi].
    assert (Li : (i < length a)%nat) by (apply nth_error_Some; congruence).
    assert (E : get1 a i = x) by (unfold get1; apply nth_error_nth; auto). rewrite <- E. apply Na. lia. }
  assert (LC : S (length (o_alphas st)) = length cs) by (unfold cs; rewrite app_length; cbn [length]; lia).
  assert (PR : exists cs' al', os_prune prm cs (o_alphas st) a = Ok (cs', al') /\ cs' <> []).
  { destruct (Nat.eq_dec (o_window prm) 0) as [Z|Z].
    - rewrite os_prune_window0 by auto. eauto.
    - destruct HTh as [|[T0 T1]]; [congruence|].
      destruct (os_prune_keeps prm cs (o_alphas st) a Z LC La) as [cs' [al' [k [c0 [h [E [Ne _]]]]]]]; auto.
      { intro Z'. rewrite Z' in K3. destruct (o_cons st); [congruence|discriminate]. }
      eauto. }
  destruct PR as [cs' [al' [EPr NE']]]. rewrite EPr. cbn [bind fst snd]. rewrite EW. cbn [bind].
  destruct (os_prune_incl _ _ _ _ _ _ EPr) as [INC LEN].
  assert (VC' : valid_cons T d Xs Ys cs'). { unfold valid_cons in *. rewrite Forall_forall in *. intros x Hx. apply VC. auto. }
  assert (HF' := valid_len T d Xs Ys G _ VC').
  rewrite (mapM_ok _ (fun c => - dot w (fst c) + snd c)).
  2:{ intros c' Hc'. rewrite np_dot_ok; auto. rewrite Forall_forall in HF'. rewrite HF'; auto. }
  cbn [bind]. destruct (np_max_ok (map (fun c => - dot w (fst c) + snd c) cs')) as [s Es]. { destruct cs'; [congruence|cbn; lia]. }
  rewrite Es. cbn [bind]. eexists. split; [reflexivity|]. split; [|discriminate]. split.
  - split; [exact Lw|]. split; [exact VC'|]. split; [exact LEN|]. split; [exact NE'|]. split; [|exact K6].
    cbn [o_alphas]. destruct (os_prune_shape _ _ _ _ _ _ EPr) as [_ [f [_ ->]]]. apply keepi_Forall, record_nonneg; auto.
    apply Forall_app. split; auto.
  - right. cbn [o_curve o_primal]. split; intro Z; apply app_eq_nil in Z; destruct Z; discriminate.
Qed.

Lemma check_old_total w viol cs : length w = d -> Forall (fun c => length (fst c) = d) cs -> exists b, os_check_old false w viol cs = Ok b.
Proof.
  intros Hw. induction 1 as [|c cs HL HF IH]; cbn [os_check_old]; [eauto|]. rewrite np_dot_ok by congruence. cbn [bind].
  destruct (Qcltb _ _); eauto.
Qed.
Lemma check_bad_total w sl viol dj loss cs : length w = d -> Forall (fun c => length (fst c) = d) cs ->
  exists b, os_check_bad prm false w sl viol dj loss cs = Ok b.
Proof.
  intros Hw HF. unfold os_check_bad. rewrite andb_false_r.
  repeat match goal with |- context [if ?b then _ else _] => destruct b; eauto end. apply check_old_total; auto.
Qed.

Lemma best_total w cache : length w = d -> Forall2 (fun p s => s <> [] /\ Forall (valid_entry T p) s) SS cache ->
  exists best, mapM (best_entry w) cache = Ok best.
Proof.
  intros Hw HV. apply mapM_total. intros s Hs.
  assert (exists p, In p SS /\ s <> [] /\ Forall (valid_entry T p) s) as [p [Hp [NE HF]]].
  { clear - HV Hs. induction HV as [|p s' l r H HV IH]; [destruct Hs|]. destruct Hs as [->|Hs]; [exists p; simpl; tauto|].
    destruct (IH Hs) as [q [A B]]. exists q. simpl; auto. }
  unfold best_entry. rewrite (mapM_ok _ (fun c => dot (fst (fst c)) w + snd (fst c))).
  - cbn [bind]. destruct (np_argmax_ok (map (fun c => dot (fst (fst c)) w + snd (fst c)) s)) as [k Ek]. { rewrite map_length. destruct s; [congruence|cbn; lia]. }
    rewrite Ek. cbn [bind]. apply np_argmax_spec in Ek. destruct Ek as [L _]. rewrite map_length in L. unfold index.
    destruct (nth_error s k) eqn:E; [eauto|]. apply nth_error_None in E. lia.
  - intros c Hc. rewrite Forall_forall in HF. destruct (HF c Hc) as [A [B _]]. rewrite np_dot_ok; auto. rewrite B, Hw. apply G; auto.
Qed.
Lemma cache_weaken cache : cache_ok cache -> cache_valid T Xs Ys cache.
Proof.
  destruct cache as [l|]; auto. cbn. intro H. induction H; constructor; tauto.
Qed.

Lemma from_cache_total (m : smodel X Y) st : sm_size m = d -> calm st -> exists r, from_cache prm m (length Xs) gt st = Ok r.
Proof.
  intros Hm [[K1 [K2 [K3 [K4 [K5 K6]]]]] HCu]. unfold from_cache. destruct (o_icache st) as [[|s cache]|] eqn:EI; eauto.
  destruct HCu as [HCu|[Q1 Q2]]; [discriminate|]. set (full := s :: cache) in *. clearbody full.
  destruct (last_of_ok _ Q2) as [pv ->]. destruct (last_of_ok _ Q1) as [ov ->]. cbn [bind].
  match goal with |- context [if ?b then _ else _] => destruct b; [eauto|] end.
  destruct (best_total (o_w st) full K1 K6) as [best EB]. rewrite EB. cbn [bind].
  assert (HV : Forall2 (fun p s => Forall (valid_entry T p) s) SS full). { exact (cache_weaken (Some full) K6). }
  assert (V := best_entries T Xs Ys _ _ _ HV EB). destruct (entries_sums T d Xs Ys G best V) as [L [F1 F2]].
  set (Yh := map (fun c => snd c) best) in *.
  assert (FL := feat_len T d Xs Ys Yh G L).
  assert (ES : sum_features (vzero (sm_size m)) (map (fun c => Ok (fst (fst c))) best) = Ok (feat_sum T d Xs Yh)).
  { rewrite <- (map_map (fun c => fst (fst c)) Ok), F1, (sum_features_ok d) by (auto; rewrite vzero_length; auto). f_equal. rewrite Hm.
    apply vadd_vzero_l. apply fold_vadd_length. auto. }
  rewrite ES. cbn [bind]. assert (LY := feat_sum_length T d Xs Ys Yh G L).
  assert (LG : length gt = d) by (unfold gt; apply gt_len; auto).
  rewrite mean_diff_ok by (auto; congruence). cbn [bind].
  rewrite np_dot_ok by (rewrite vscale_length, vsub_length; congruence). cbn [bind].
  match goal with |- context [os_check_bad prm false ?w ?sl ?v ?dj ?l ?cs] => destruct (check_bad_total w sl v dj l cs K1 (valid_len T d Xs Ys G _ K2)) as [b Eb] end.
  rewrite Eb. cbn [bind]. destruct b; eauto.
Qed.

Lemma find_new_total bm w sl cs : batch_ok bm T d Xs Ys -> length w = d -> valid_cons T d Xs Ys cs ->
  exists r, find_new prm bm Xs Ys gt w sl cs = Ok r.
Proof.
  intros [Hm [HL [HO [HB HI]]]] Hw HV. unfold find_new. destruct (HI w Hw) as [Yh [EY L]]. destruct (HB Yh L) as [EF EL].
  rewrite EY. cbn [bind]. rewrite EF. cbn [bind]. assert (LY := feat_sum_length T d Xs Ys Yh G L).
  assert (LG : length gt = d) by (unfold gt; apply gt_len; auto).
  rewrite mean_diff_ok by (auto; congruence). cbn [bind]. rewrite EL. cbn [bind].
  assert (LL : length (map (fun p => t_loss T (fst p) (snd p)) (combine Ys Yh)) = length Xs).
  { rewrite map_length, combine_length. apply Forall2_len in L. lia. }
  rewrite LL. destruct (Nat.eqb_spec (length Xs) 0) as [Z|_]; [lia|]. cbn [negb ensure bind].
  rewrite np_dot_ok by (rewrite vscale_length, vsub_length; congruence). cbn [bind]. rewrite HBr.
  match goal with |- context [os_check_bad prm false ?w ?sl ?v ?dj ?l ?cs] => destruct (check_bad_total w sl v dj l cs Hw (valid_len T d Xs Ys G _ HV)) as [b Eb] end.
  rewrite Eb. cbn [bind]. destruct b; eauto.
Qed.

Lemma update_sample_total m x y yh sample : (forall a b, exists r, ceq a b = Ok r) -> implements m T d x y -> sm_rescale m = false -> t_label T x yh ->
  Forall (valid_entry T (x, y)) sample ->
  exists s', update_sample ceq prm m sample x y yh = Ok s' /\ s' <> [] /\ Forall (valid_entry T (x, y)) s'.
Proof.
  intros HEq HI HR HL HV. assert (EX : exists s', update_sample ceq prm m sample x y yh = Ok s').
  { unfold update_sample. destruct (mapM_total (fun c => ceq yh (snd c)) sample) as [there ET]. { intros c _. apply HEq. }
    rewrite ET. cbn [bind]. destruct (existsb _ there); [eauto|]. destruct HI as [_ [_ HI]]. destruct (HI yh HL) as [_ [J1 J2]]. rewrite HR in J1.
    rewrite J1. cbn [bind]. unfold sm_full_loss. rewrite J2. cbn [bind]. eauto. }
  destruct EX as [s' E]. exists s'. split; auto. split.
  - apply update_sample_spec in E. destruct E as [[-> [c [I _]]]|[_ [f [l [_ [_ ->]]]]]].
    + intro Z; subst; destruct I. + intro Z. apply app_eq_nil in Z. destruct Z; discriminate.
  - eapply update_sample_valid; eauto.
Qed.
Lemma update_samples_total m : (forall a b, exists r, ceq a b = Ok r) -> sm_rescale m = false -> forall (xs : list X) (ys : list Y) cache Yh,
  length xs = length ys -> (forall p, In p (combine xs ys) -> implements m T d (fst p) (snd p)) -> labelling T xs Yh ->
  Forall2 (fun p s => Forall (valid_entry T p) s) (combine xs ys) cache ->
  exists c', update_samples ceq prm m cache xs ys Yh = Ok c' /\ Forall2 (fun p s => s <> [] /\ Forall (valid_entry T p) s) (combine xs ys) c'.
Proof.
  intros HEq HR. induction xs as [|x xs IH]; intros [|y ys] cache Yh HL HI HY HV; try discriminate; cbn [combine] in *.
  - inversion HV; subst. exists []. split; [reflexivity|constructor].
  - inversion HV; subst. inversion HY; subst. cbn [update_samples].
    match goal with H : t_label T x ?h, HV1 : Forall (valid_entry T (x, y)) ?s |- _ => destruct (update_sample_total m x y h s HEq) as [s' [E1 [E2 E3]]]; auto; [apply (HI (x, y)); simpl; auto|] end.
    rewrite E1. cbn [bind].
    match goal with HL2 : Forall2 _ xs ?h, HV2 : Forall2 _ (combine xs ys) ?l |- _ =>
      destruct (IH ys l h (eq_add_S _ _ HL) (fun p Hp => HI p (or_intror Hp)) HL2 HV2) as [c' [E4 E5]] end.
    rewrite E4. cbn [bind]. eexists. split; [reflexivity|]. constructor; auto.
Qed.
Lemma update_cache_total bm cache Yh : usable T d prm Xs Ys bm -> labelling T Xs Yh -> cache_ok cache ->
  exists c', update_cache ceq prm (bm_s bm) cache Xs Ys Yh = Ok c' /\ cache_ok c'.
Proof.
  intros [[_ [HL [HO _]]] HR] HY HV. unfold update_cache. destruct (Nat.eqb_spec (o_cache prm) 0) as [Z|Z]; [eauto|].
  destruct HR as [HR|HR]; [congruence|]. destruct HE as [HE'|HE']; [congruence|].
  destruct (update_samples_total (bm_s bm) HE' HR Xs Ys (match cache with Some c => c | None => map (fun _ => []) Yh end) Yh HL) as [c' [E1 E2]].
  - intros p Hp. apply (HO p Hp).
  - exact HY.
  - destruct cache as [c|]; [apply (cache_weaken (Some c)); auto|]. apply Forall2_len in HY. clear - HY HL.
    rewrite HL in HY. revert Ys Yh HL HY. induction Xs as [|x xs IH]; intros [|y ys] [|h hs] L1 L2; try discriminate; cbn [combine map]; constructor; auto.
  - rewrite E1. cbn [bind]. eexists. split; [reflexivity|exact E2].
Qed.

(** the loop always finishes; it solved a QP iff a constraint was found *)
Lemma loop_total1 k : forall bm sw st, usable T d prm Xs Ys bm -> (forall b, sw = Some b -> usable T d prm Xs Ys b) -> calm st ->
  exists st' reason bm', os_loop ceq solve prm Xs Ys gt k bm sw st = Ok (st', reason, bm') /\ calm st' /\ (bm' = bm \/ sw = Some bm') /\
    (o_obj st <> None -> o_obj st' <> None) /\
    (k <> O -> o_icache st = None -> (exists r, find_new prm bm Xs Ys gt (o_w st) (o_slack st) (o_cons st) = Ok (Some r)) -> o_obj st' <> None).
Proof.
  induction k as [|k IH]; intros bm sw st HB HSW HK; cbn [os_loop].
  { exists st, OSMaxIter, bm. split; [reflexivity|]. split; [exact HK|]. split; [left; reflexivity|]. split; [auto|congruence]. }
  destruct (from_cache_total (bm_s bm) st) as [oc EC]; auto. { apply HB. } rewrite EC. cbn [bind].
  destruct oc as [c|].
  - assert (CV := cache_weaken _ (proj2 (proj2 (proj2 (proj2 (proj2 (proj1 HK))))))).
    destruct (from_cache_con T d Xs Ys G HN prm (bm_s bm) st c) as [Yh HM]; auto. { apply HB. }
    destruct (step_total true c Yh st (proj1 HK) HM) as [st1 [E1 [A1 A2]]]. rewrite E1. cbn [bind].
    destruct (IH bm sw st1 HB HSW A1) as [st' [reason [bm' [EL [B1 [B2 [B3 _]]]]]]]. exists st', reason, bm'. rewrite EL. repeat (split; auto).
  - assert (Hw : length (o_w st) = d) by apply HK. assert (VC : valid_cons T d Xs Ys (o_cons st)) by apply HK.
    destruct (find_new_total bm (o_w st) (o_slack st) (o_cons st) (proj1 HB) Hw VC) as [r EF]. rewrite EF. cbn [bind].
    destruct (find_new_form T d Xs Ys G HN prm bm _ _ _ _ (proj1 HB) Hw EF) as [Yh [c [bad [EY [HM [EBd Er]]]]]].
    destruct bad; subst r.
    + destruct sw as [b|].
      * destruct (IH b None st) as [st' [reason [bm' [EL [B1 [B2 [B3 _]]]]]]]; auto. discriminate.
        exists st', reason, bm'. rewrite EL. split; auto. split; auto. split. { destruct B2 as [->|B2]; [auto|discriminate]. }
        split; auto. intros _ _ [r Z]. discriminate.
      * exists st, OSNoConstraint, bm. split; auto. split; auto. split; auto. split; auto. intros _ _ [r Z]. discriminate.
    + destruct (update_cache_total bm (o_icache st) Yh HB (proj1 HM)) as [c' [EU CK]]. { apply HK. } rewrite EU. cbn [bind].
      match goal with |- context [os_step solve prm (length Xs) false c ?s] => assert (K0 : calm0 s) end.
      { destruct HK as [[K1 [K2 [K3 [K4 [K5 K6]]]]] _]. repeat (split; auto). }
      destruct (step_total false c Yh _ K0 HM) as [st1 [E1 [A1 A2]]]. rewrite E1. cbn [bind].
      destruct (IH bm sw st1 HB HSW A1) as [st' [reason [bm' [EL [B1 [B2 [B3 _]]]]]]]. exists st', reason, bm'. rewrite EL. repeat (split; auto).
Qed.
Lemma primal_total bm w : usable T d prm Xs Ys bm -> length w = d -> exists p, objective_primal (bm_s bm) w Xs Ys (o_C prm) OneSlack = Ok p.
Proof.
  intros [[_ [HL [HO _]]] _] Hw. unfold objective_primal.
  destruct (mapM_total (fun p => find_constraint (bm_s bm) (fst p) (snd p) w None true) SS) as [cands EM].
  { intros p Hp. destruct (find_total T d Xs Ys (bm_s bm) w p HO Hw Hp) as [yh [_ [_ E]]]. eauto. }
  rewrite EM. cbn [bind]. assert (L : length cands = length SS) by (eapply mapM_length; eauto). rewrite combine_length in L.
  destruct (Nat.eqb_spec (length cands) 0) as [Z|_]; [lia|]. cbn [negb ensure bind]. eauto.
Qed.
(** fit from a given start *)
Lemma fit_from bm sw ws s0 : usable T d prm Xs Ys bm -> (forall b, sw = Some b -> usable T d prm Xs Ys b) ->
  os_start prm d ws = Ok s0 -> calm s0 ->
  (os_fit ceq solve prm bm sw Xs Ys ws = Err UnboundLocalError \/ exists st reason, os_fit ceq solve prm bm sw Xs Ys ws = Ok (st, reason) /\
     calm st /\ o_curve st <> [] /\ o_primal st <> []) /\
  (o_max_iter prm <> O -> o_icache s0 = None -> (exists r, find_new prm bm Xs Ys gt (o_w s0) (o_slack s0) (o_cons s0) = Ok (Some r)) ->
   exists r, os_fit ceq solve prm bm sw Xs Ys ws = Ok r).
Proof.
  intros HB HSW E0 HK. unfold os_fit. rewrite (proj1 (proj1 HB)), E0. cbn [bind]. rewrite (gt_value T d Xs Ys bm (proj1 HB)). cbn [bind].
  destruct (loop_total1 (o_max_iter prm) bm sw s0 HB HSW HK) as [st' [reason [bm' [EL [B1 [B2 [B3 B4]]]]]]]. fold gt. rewrite EL. cbn [bind].
  assert (HB' : usable T d prm Xs Ys bm'). { destruct B2 as [->|B2]; auto. }
  destruct (primal_total bm' (o_w st') HB') as [p EP]. { apply B1. } rewrite EP. cbn [bind]. split.
  - destruct (o_obj st') as [o|]; cbn [bind]; [|auto]. right. eexists. eexists. split; [reflexivity|].
    assert (N1 : forall (l : list Qc) x, l ++ [x] <> []). { intros l x Z. apply app_eq_nil in Z. destruct Z; discriminate. }
    split; [|cbn [o_curve o_primal]; auto]. destruct B1 as [[K1 [K2 [K3 [K4 [K5 K6]]]]] _]. split; [repeat (split; auto)|]. right. cbn [o_curve o_primal]. auto.
  - intros M0 EI HF. specialize (B4 M0 EI HF). destruct (o_obj st') as [o|]; [|congruence]. cbn [bind]. eauto.
Qed.
Lemma cold_calm : exists s0, os_start prm d (@Cold Y) = Ok s0 /\ calm s0 /\ o_icache s0 = None /\ o_w s0 = vzero d /\ o_slack s0 = - (1) /\ o_cons s0 = [(vzero d, 0)].
Proof.
  eexists. split; [reflexivity|]. split; [|auto]. split; [|left; reflexivity].
  split; [apply vzero_length|]. split. { constructor; [|constructor]. exists Ys. apply gt_con. auto. }
  split; [reflexivity|]. split; [discriminate|]. split; [|exact I]. repeat constructor. exact HC.
Qed.

(** ** first round of a fresh fit *)
Lemma first_round bm Yh : batch_ok bm T d Xs Ys -> bm_laug bm Xs Ys (vzero d) = Ok Yh ->
  exists c bad, mean_con T d Xs Ys Yh c /\ find_new prm bm Xs Ys gt (vzero d) (- (1)) [(vzero d, 0)] = Ok (if bad : bool then None else Some (Yh, c)) /\
    bad = (Qcltb (snd c + 1) (o_tol prm) || (vec_eqb (vzero d) (fst c) && Qceqb (snd c) 0) ||
           (o_check prm && Qcltb (snd c) (- small))).
Proof.
  intros HB EY. assert (VC : valid_cons T d Xs Ys [(vzero d, 0)]). { constructor; [|constructor]. exists Ys. apply gt_con. auto. }
  destruct (find_new_total bm (vzero d) (- (1)) [(vzero d, 0)] HB (vzero_length d) VC) as [r EF].
  destruct (find_new_form T d Xs Ys G HN prm bm _ _ _ _ HB (vzero_length d) EF) as [Yh' [c [bad [EY' [HM [EBd Er]]]]]].
  assert (Yh' = Yh) by congruence. subst Yh'. subst r. exists c, bad. split; auto. split; auto.
  rewrite HBr in EBd. unfold os_check_bad in EBd. rewrite andb_false_r in EBd.
  assert (V : violation (vzero d) c = snd c) by (unfold violation; rewrite dot_vzero_l; ring). rewrite V in EBd.
  replace (snd c - - (1)) with (snd c + 1) in EBd by ring.
  destruct (Qcltb (snd c + 1) (o_tol prm)); [injection EBd as <-; reflexivity|]. cbn [existsb] in EBd. cbn [fst snd] in EBd. rewrite orb_false_r in EBd.
  destruct (vec_eqb (vzero d) (fst c) && Qceqb (snd c) 0); [injection EBd as <-; reflexivity|]. cbn [orb].
  destruct (o_check prm); [|injection EBd as <-; reflexivity]. cbn [os_check_old fst snd] in EBd.
  rewrite np_dot_ok in EBd by (rewrite !vzero_length; auto). cbn [bind] in EBd. rewrite dot_vzero_l in EBd.
  replace (snd c - Qcmax (0 - 0) 0) with (snd c) in EBd. 2:{ replace (Qcmax (0 - 0) 0) with 0. ring. symmetry. apply Qcle_antisym. apply Qcmax_lub; discriminate. apply Qcmax_ge_r. }
  cbn [andb]. destruct (Qcltb (snd c) (- small)); injection EBd as <-; reflexivity.
Qed.

Lemma fit1_total bm sw Yh : usable T d prm Xs Ys bm -> (forall b, sw = Some b -> usable T d prm Xs Ys b) ->
  (0 < o_max_iter prm)%nat -> o_tol prm <= 1 -> bm_laug bm Xs Ys (vzero d) = Ok Yh -> 0 < loss_sum T Ys Yh ->
  exists r, os_fit ceq solve prm bm sw Xs Ys Cold = Ok r.
Proof.
  intros HB HSW HI HT EY HLs. destruct cold_calm as [s0 [E0 [K0 [C1 [C2 [C3 C4]]]]]].
  apply (fit_from bm sw Cold s0 HB HSW E0 K0); auto. { lia. } rewrite C2, C3, C4.
  destruct (first_round bm Yh (proj1 HB) EY) as [c [bad [HM [EF EB]]]]. exists (Yh, c). rewrite EF. 
  assert (P : 0 < snd c). { destruct HM as [_ [_ ->]]. unfold Qcdiv. apply Qcmult_pos; auto. apply Qcinv_pos, ofN_pos. auto. }
  assert (B : bad = false).
  { rewrite EB. destruct (Qcltb_spec (snd c + 1) (o_tol prm)) as [Z|_]; [exfalso; revert Z; apply Qcle_not_lt; qclra|].
    destruct (Qceqb_spec (snd c) 0) as [Z|_]; [exfalso; rewrite Z in P; discriminate|]. rewrite andb_false_r.
    destruct (Qcltb_spec (snd c) (- small)) as [Z|_]; [|rewrite andb_false_r; reflexivity].
    exfalso. assert (S0 : 0 < small) by reflexivity. set (z := small) in *. clearbody z. revert Z. apply Qcle_not_lt. qclra. }
  rewrite B. reflexivity.
Qed.
Lemma vec_eqb_refl v : vec_eqb v v = true.
Proof.
  unfold vec_eqb. rewrite Nat.eqb_refl. cbn [andb]. induction v as [|q v IH]; cbn [combine forallb fst snd]; auto.
  rewrite IH. destruct (Qceqb_spec q q); auto.
Qed.
Lemma fit1_unbound bm Yh : usable T d prm Xs Ys bm -> bm_laug bm Xs Ys (vzero d) = Ok Yh ->
  (loss_sum T Ys Yh = 0 /\ feat_sum T d Xs Yh = feat_sum T d Xs Ys) \/ 1 + loss_sum T Ys Yh / ofN (length Xs) < o_tol prm ->
  os_fit ceq solve prm bm None Xs Ys Cold = Err UnboundLocalError.
Proof.
  intros HB EY HL. destruct cold_calm as [s0 [E0 [K0 [C1 [C2 [C3 C4]]]]]].
  unfold os_fit. rewrite (proj1 (proj1 HB)), E0. cbn [bind]. rewrite (gt_value T d Xs Ys bm (proj1 HB)). cbn [bind].
  destruct (first_round bm Yh (proj1 HB) EY) as [c [bad [HM [EF EB]]]].
  assert (B : bad = true).
  { rewrite EB. destruct HM as [_ [M1 M2]]. destruct HL as [[L1 L2]|L].
    - assert (Z : snd c = 0). { rewrite M2, L1. unfold Qcdiv. ring. }
      assert (Z2 : fst c = vzero d).
      { rewrite M1, L2. apply vec_ext. rewrite vscale_length, vsub_length, vzero_length; auto. rewrite (gt_len T d Xs Ys G). reflexivity.
        intros i _. rewrite get1_vscale, get1_vsub, get1_vzero by auto. ring. }
      rewrite Z, Z2, vec_eqb_refl. destruct (Qceqb_spec 0 0) as [_|NZ]; [|congruence]. cbn [andb]. rewrite orb_true_r. reflexivity.
    - rewrite M2. destruct (Qcltb_spec (loss_sum T Ys Yh / ofN (length Xs) + 1) (o_tol prm)) as [_|Z]; [reflexivity|].
      exfalso. rewrite Qcplus_comm in Z. revert L. apply Qcle_not_lt. exact Z. }
  rewrite B in EF.
  assert (EL : exists reason, os_loop ceq solve prm Xs Ys (feat_sum T d Xs Ys) (o_max_iter prm) bm None s0 = Ok (s0, reason, bm)).
  { destruct (o_max_iter prm) as [|k]; cbn [os_loop]; [eauto|]. unfold from_cache. rewrite C1. cbn [bind]. rewrite C2, C3, C4. fold gt. rewrite EF. cbn [bind]. eauto. }
  destruct EL as [reason EL]. rewrite EL. cbn [bind].
  destruct (primal_total bm (o_w s0) HB) as [p EP]. { apply K0. } rewrite EP. cbn [bind]. rewrite (start_obj prm _ _ _ E0). reflexivity.
Qed.
Lemma fit1_max_iter_zero bm sw : usable T d prm Xs Ys bm -> o_max_iter prm = O -> os_fit ceq solve prm bm sw Xs Ys Cold = Err UnboundLocalError.
Proof.
  intros HB HI. destruct cold_calm as [s0 [E0 [K0 _]]].
  unfold os_fit. rewrite (proj1 (proj1 HB)), E0. cbn [bind]. rewrite (gt_value T d Xs Ys bm (proj1 HB)). cbn [bind]. rewrite HI. cbn [os_loop bind].
  destruct (primal_total bm (o_w s0) HB) as [p EP]. { apply K0. } rewrite EP. cbn [bind]. rewrite (start_obj prm _ _ _ E0). reflexivity.
Qed.

(** ** resuming *)
Lemma resumable_calm a : resumable T d Xs Ys a -> exists s0, os_start prm d (Warm a) = Ok s0 /\ calm s0.
Proof.
  intros [cs [E [NE [L [Lw [V [NN HCa]]]]]]]. cbn [os_start]. rewrite E. eexists. split; [reflexivity|]. split.
  - split; [exact Lw|]. split; [exact V|]. split; [exact L|]. split; [exact NE|]. split; [exact NN|]. cbn [o_icache]. destruct (oa_icache a); [apply HCa|exact I].
  - cbn [o_icache o_curve o_primal]. destruct (oa_icache a); [right; tauto|auto].
Qed.
Lemma fit_resumes bm sw a : usable T d prm Xs Ys bm -> (forall b, sw = Some b -> usable T d prm Xs Ys b) -> resumable T d Xs Ys a ->
  os_fit ceq solve prm bm sw Xs Ys (Warm a) = Err UnboundLocalError \/
  exists st reason, os_fit ceq solve prm bm sw Xs Ys (Warm a) = Ok (st, reason) /\ resumable T d Xs Ys (attrs_of st).
Proof.
  intros HB HSW HR. destruct (resumable_calm a HR) as [s0 [E0 K0]]. destruct (fit_from bm sw (Warm a) s0 HB HSW E0 K0) as [[E|[st [re [E [K1 [K2 K3]]]]]] _]; auto.
  right. exists st, re. split; auto. destruct K1 as [[J1 [J2 [J3 [J4 [J5 J6]]]]] _]. exists (o_cons st). repeat (split; auto). cbn [attrs_of oa_icache oa_curve oa_primal].
  destruct (o_icache st); auto.
Qed.
Lemma fit_cold_resumable bm sw st reason : usable T d prm Xs Ys bm -> (forall b, sw = Some b -> usable T d prm Xs Ys b) ->
  os_fit ceq solve prm bm sw Xs Ys Cold = Ok (st, reason) -> resumable T d Xs Ys (attrs_of st).
Proof.
  intros HB HSW H. destruct cold_calm as [s0 [E0 [K0 _]]]. destruct (fit_from bm sw Cold s0 HB HSW E0 K0) as [[E|[st' [re [E [K1 [K2 K3]]]]]] _]; [congruence|].
  assert (st' = st) by congruence. subst st'.
  destruct K1 as [[J1 [J2 [J3 [J4 [J5 J6]]]]] _]. exists (o_cons st). repeat (split; auto). cbn [attrs_of oa_icache oa_curve oa_primal].
  destruct (o_icache st); auto.
Qed.
End total.
