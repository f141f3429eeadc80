From Verif Require Import Model.OneSlack Spec.OneSlackSpec Proofs.Arrays Proofs.LossProofs Proofs.MaxProdProofs Proofs.CRFProofs Proofs.LearnerProofs
  Proofs.QPProofs Proofs.QPProofs2 Proofs.NSlackProofs Proofs.NSlackProofs2 Proofs.NSlackProofs4 Proofs.NSlackProofs5 Proofs.OneSlackQP Proofs.OneSlackPrune
  Proofs.OneSlackCache Proofs.OneSlackProofs Proofs.OneSlackProofs2.

(** ** facts about every run *)
Section any.
Context {X Y : Type} (ceq : Y -> Y -> res bool) (solve : qp_solver) (prm : os_params).
Variables (Xs : list X) (Ys : list Y).

Lemma step_shape n cached c (st st' : os_state Y) : os_step solve prm n cached c st = Ok st' ->
  length (o_cons st) = length (o_alphas st) /\ length (o_cons st') = length (o_alphas st') /\ o_cons st' <> [] /\ o_icache st' = o_icache st.
Proof.
  intro H. unfold os_step in H. apply bind_ok in H. destruct H as [q [_ H]]. apply bind_ok in H. destruct H as [[[[w obj] cs'] al'] [ES H]].
  rewrite <- (repeat_length tt n) in ES. apply solve1_inv in ES. destruct ES as [a [reg [p [_ [_ [_ [EP _]]]]]]].
  apply bind_ok in H. destruct H as [vs [EV H]]. apply bind_ok in H. destruct H as [s [EM H]]. injection H as <-. cbn [o_cons o_alphas o_icache].
  destruct (os_prune_shape _ _ _ _ _ _ EP) as [L _]. rewrite app_length in L. cbn [length] in L. split; [lia|].
  split; [eapply os_prune_incl; eauto|]. split; auto. intro E. subst cs'. cbn in EV. injection EV as <-. discriminate.
Qed.
Lemma loop_shape gt k : forall bm sw (st st' : os_state Y) reason bm',
  os_loop ceq solve prm Xs Ys gt k bm sw st = Ok (st', reason, bm') ->
  st' = st \/
  (length (o_cons st) = length (o_alphas st) /\ length (o_cons st') = length (o_alphas st') /\ o_cons st' <> []).
Proof.
  induction k as [|k IH]; intros bm sw st st' reason bm' H; cbn [os_loop] in H. { injection H as <- <- <-. auto. }
  apply bind_ok in H. destruct H as [oc [EC H]]. destruct oc as [c|].
  - apply bind_ok in H. destruct H as [st1 [E1 H]]. apply step_shape in E1. destruct E1 as [A1 [A2 [A3 A4]]].
    right. split; auto. apply IH in H. destruct H as [->|H]; tauto.
  - apply bind_ok in H. destruct H as [r [EF H]]. destruct r as [[Yh c]|].
    + apply bind_ok in H. destruct H as [cache [EU H]]. apply bind_ok in H. destruct H as [st1 [E1 H]].
      apply step_shape in E1. cbn [o_cons o_alphas] in E1. destruct E1 as [A1 [A2 [A3 A4]]].
      right. split; auto. apply IH in H. destruct H as [->|H]; tauto.
    + destruct sw as [b|]; [eapply IH; eauto|]. injection H as <- <- <-. auto.
Qed.
Lemma loop_cache (P : list (centry Y) -> Prop) gt k : P [] ->
  (forall (m : smodel X Y) s x y yh s', update_sample ceq prm m s x y yh = Ok s' -> P s -> P s') ->
  forall bm sw (st st' : os_state Y) reason bm', cache_all P (o_icache st) ->
  os_loop ceq solve prm Xs Ys gt k bm sw st = Ok (st', reason, bm') -> cache_all P (o_icache st').
Proof.
  intros P0 HP. induction k as [|k IH]; intros bm sw st st' reason bm' HC H; cbn [os_loop] in H. { injection H as <- <- <-. auto. }
  apply bind_ok in H. destruct H as [oc [EC H]]. destruct oc as [c|].
  - apply bind_ok in H. destruct H as [st1 [E1 H]]. apply step_shape in E1. destruct E1 as [A1 [A2 [A3 A4]]].
    eapply IH; [|exact H]. rewrite A4. auto.
  - apply bind_ok in H. destruct H as [r [EF H]]. destruct r as [[Yh c]|].
    + apply bind_ok in H. destruct H as [cache [EU H]]. apply bind_ok in H. destruct H as [st1 [E1 H]].
      apply step_shape in E1. cbn [o_icache] in E1. destruct E1 as [A1 [A2 [A3 A4]]].
      eapply IH; [|exact H]. rewrite A4. eapply update_cache_all; eauto.
    + destruct sw as [b|]; [eapply IH; eauto|]. injection H as <- <- <-. auto.
Qed.

Lemma fit_split0 bm sw (ws : warm Y) st reason : os_fit ceq solve prm bm sw Xs Ys ws = Ok (st, reason) ->
  exists s0 gt st0 bm', os_start prm (sm_size (bm_s bm)) ws = Ok s0 /\
    os_loop ceq solve prm Xs Ys gt (o_max_iter prm) bm sw s0 = Ok (st0, reason, bm') /\ o_obj st0 <> None /\
    o_cons st = o_cons st0 /\ o_alphas st = o_alphas st0 /\ o_icache st = o_icache st0.
Proof.
  intro H. unfold os_fit in H. apply bind_ok in H. destruct H as [s0 [E0 H]]. apply bind_ok in H. destruct H as [gt [EG H]].
  apply bind_ok in H. destruct H as [[[st0 r] bm'] [EL H]].
  apply bind_ok in H. destruct H as [p [EP H]]. apply bind_ok in H. destruct H as [obj [EO H]].
  destruct (o_obj st0) as [o|] eqn:EOB; [|discriminate]. injection EO as <-. injection H as <- <-.
  exists s0, gt, st0, bm'. rewrite EOB. repeat (split; auto). discriminate.
Qed.
Lemma start_obj (ws : warm Y) size s0 : os_start prm size ws = Ok s0 -> o_obj s0 = None.
Proof. destruct ws as [|a|a]; cbn. - intro H. injection H as <-. auto. - intro H. injection H as <-. auto.
  - destruct (oa_cons a); [|discriminate]. intro H. injection H as <-. auto. Qed.

Lemma fit_aligned bm sw (ws : warm Y) st reason : os_fit ceq solve prm bm sw Xs Ys ws = Ok (st, reason) ->
  length (o_cons st) = length (o_alphas st) /\ o_cons st <> [].
Proof.
  intro H. apply fit_split0 in H. destruct H as [s0 [gt [st0 [bm' [E0 [EL [EO [-> [-> _]]]]]]]]].
  apply loop_shape in EL. destruct EL as [->|[_ EL]]; auto. exfalso. apply EO. eapply start_obj; eauto.
Qed.
(** constraints and histories of different lengths: training cannot be resumed *)
Lemma fit_misaligned bm sw a cs : oa_cons a = Some cs -> length cs <> length (oa_alphas a) ->
  forall r, os_fit ceq solve prm bm sw Xs Ys (Warm a) <> Ok r.
Proof.
  intros EC HL [st reason] H. apply fit_split0 in H. destruct H as [s0 [gt [st0 [bm' [E0 [EL [EO _]]]]]]].
  assert (E0' := E0). cbn [os_start] in E0. rewrite EC in E0. injection E0 as E0.
  apply loop_shape in EL. destruct EL as [->|[EL _]].
  - apply EO. eapply start_obj; eauto.
  - apply HL. subst s0. exact EL.
Qed.
Lemma fit_cache (ws : warm Y) bm sw st reason : os_fit ceq solve prm bm sw Xs Ys ws = Ok (st, reason) ->
  (forall cache, match ws with Cold => None | Soft a | Warm a => oa_icache a end = Some cache ->
     Forall (fun s => distinct_results ceq s /\ (length s <= S (o_cache prm))%nat) cache) ->
  forall cache, o_icache st = Some cache -> Forall (fun s => distinct_results ceq s /\ (length s <= S (o_cache prm))%nat) cache.
Proof.
  intros H HW. apply fit_split0 in H. destruct H as [s0 [gt [st0 [bm' [E0 [EL [_ [_ [_ ->]]]]]]]]].
  assert (C0 : cache_all (fun s => distinct_results ceq s /\ (length s <= S (o_cache prm))%nat) (o_icache s0)).
  { destruct ws as [|a|a]; cbn [os_start] in E0.
    - injection E0 as <-. exact I.
    - injection E0 as <-. cbn [o_icache]. destruct (oa_icache a); [apply HW; auto|exact I].
    - destruct (oa_cons a); [|discriminate]. injection E0 as <-. cbn [o_icache]. destruct (oa_icache a); [apply HW; auto|exact I]. }
  assert (C1 : cache_all (fun s => distinct_results ceq s /\ (length s <= S (o_cache prm))%nat) (o_icache st0)).
  { eapply loop_cache; [| |exact C0|exact EL].
    - split; [constructor|cbn; lia].
    - intros m s x y yh s' E [A B]. split. eapply update_sample_distinct; eauto. eapply update_sample_bound; eauto. }
  intros cache E. rewrite E in C1. exact C1.
Qed.

Lemma sum_features_get d fs : forall acc r, sum_features acc (map Ok fs) = Ok r -> length acc = d ->
  forall i, get1 r i = get1 acc i + lsum (map (fun f => get1 f i) fs).
Proof.
  induction fs as [|f fs IH]; intros acc r H L i; cbn [map sum_features] in H.
  - injection H as <-. cbn [map lsum]. ring.
  - cbn [bind] in H. unfold np_vadd in H. destruct (Nat.eqb_spec (length acc) (length f)) as [E|]; [|discriminate]. cbn [bind] in H.
    rewrite (IH _ _ H) by (rewrite vadd_length; auto). cbn [map lsum]. rewrite get1_vadd by auto. ring.
Qed.
Lemma from_cache_best (m : smodel X Y) n gt (st : os_state Y) c : from_cache prm m n gt st = Ok (Some c) ->
  exists cache best acc, o_icache st = Some cache /\ Forall2 (best_cached (o_w st)) cache best /\
    length acc = length gt /\ (forall i, get1 acc i = lsum (map (fun e => get1 (fst (fst e)) i) best)) /\
    fst c = vscale (/ ofN n) (vsub gt acc) /\ snd c = lsum (map (fun e => snd (fst e)) best) / ofN n.
Proof.
  intro H. unfold from_cache in H. destruct (o_icache st) as [[|s cache]|]; try discriminate.
  set (full := s :: cache) in *. clearbody full.
  apply bind_ok in H. destruct H as [p [_ H]]. apply bind_ok in H. destruct H as [o [_ H]].
  match type of H with (if ?b then _ else _) = _ => destruct b; [discriminate|] end.
  apply bind_ok in H. destruct H as [best [EB H]]. apply bind_ok in H. destruct H as [acc [EA H]].
  apply bind_ok in H. destruct H as [dj [ED H]]. apply bind_ok in H. destruct H as [dd [_ H]]. apply bind_ok in H. destruct H as [bad [_ H]].
  destruct bad; [discriminate|]. injection H as <-. unfold mean_diff, np_vsub in ED.
  destruct (Nat.eqb_spec (length gt) (length acc)) as [EL|]; [|discriminate]. cbn [bind] in ED. apply bind_ok in ED. destruct ED as [u [_ ED]].
  injection ED as <-. exists full, best, acc. split; auto. split.
  { apply mapM_Forall2 in EB. clear - EB. induction EB; constructor; auto. apply best_entry_spec. auto. }
  split; auto. split.
  { intro i. rewrite <- (map_map (fun e => fst (fst e)) Ok) in EA. rewrite (sum_features_get _ _ _ _ EA eq_refl), get1_vzero, map_map. ring. }
  split; reflexivity.
Qed.

(** the assertion of [prune_constraints] *)
Lemma step_misaligned n cached c (st : os_state Y) r : length (o_cons st) <> length (o_alphas st) -> length (o_w st) = length (fst c) ->
  run_qp solve (one_slack_problem (o_C prm) (o_neg prm) n (map fst (o_cons st ++ [c])) (map snd (o_cons st ++ [c]))) = Ok r ->
  os_step solve prm n cached c st = Err AssertionError.
Proof.
  intros HL HW ER. unfold os_step. rewrite np_dot_ok by auto. cbn [bind]. unfold solve_1_slack_qp. rewrite ER. cbn [bind].
  rewrite os_prune_misaligned; [reflexivity|]. rewrite app_length. cbn [length]. lia.
Qed.
Lemma fit_assertion bm sw a cs gt Yh c cache r : oa_cons a = Some cs -> length cs <> length (oa_alphas a) ->
  (0 < o_max_iter prm)%nat ->
  bm_joint bm Xs Ys (if sm_rescale (bm_s bm) then Some Ys else None) = Ok gt ->
  oa_icache a = None ->
  find_new prm bm Xs Ys gt (oa_w a) (- (1)) cs = Ok (Some (Yh, c)) -> length (oa_w a) = length (fst c) ->
  update_cache ceq prm (bm_s bm) None Xs Ys Yh = Ok cache ->
  run_qp solve (one_slack_problem (o_C prm) (o_neg prm) (length Xs) (map fst (cs ++ [c])) (map snd (cs ++ [c]))) = Ok r ->
  os_fit ceq solve prm bm sw Xs Ys (Warm a) = Err AssertionError.
Proof.
  intros EC HL HI EG EN EF EW EU ER. unfold os_fit. cbn [os_start]. rewrite EC. cbn [bind]. rewrite EG. cbn [bind].
  destruct (o_max_iter prm) as [|k]; [lia|]. cbn [os_loop]. unfold from_cache at 1. cbn [o_icache]. rewrite EN. cbn [bind o_w o_slack o_cons].
  rewrite EF. cbn [bind]. cbn [o_icache]. rewrite EU. cbn [bind].
  rewrite (step_misaligned _ _ _ _ r); cbn [o_cons o_alphas o_w]; auto.
Qed.
Lemma fit_no_attribute bm sw a : oa_cons a = None -> os_fit ceq solve prm bm sw Xs Ys (Warm a) = Err AttributeError.
Proof. intro H. unfold os_fit. cbn [os_start]. rewrite H. reflexivity. Qed.
End any.

(** the last point of an iteration is what it ends with *)
Lemma points_last {A} prm (c : A) a cs alphas cs' al' : os_prune prm (cs ++ [c]) alphas a = Ok (cs', al') ->
  snd (last (os_points prm c a cs alphas) (PBefore, (cs, alphas))) = (cs', al').
Proof.
  unfold os_prune, os_points. intro H. apply bind_ok in H. destruct H as [u [_ H]].
  destruct (o_window prm =? 0)%nat.
  - injection H as <- <-. reflexivity.
  - apply bind_ok in H. destruct H as [inact [EI H]]. injection H as H. rewrite EI. rewrite <- H.
    rewrite <- (del_points_last (rev inact) (cs ++ [c]) (record_duals (alphas ++ [[]]) a) PRecorded).
    destruct (del_points (rev inact) (cs ++ [c]) (record_duals (alphas ++ [[]]) a)) as [|p l] eqn:E; [reflexivity|].
    match goal with |- snd (last (?a1 :: ?a2 :: ?a3 :: ?a4 :: p :: l) ?d) = _ => change (snd (last (p :: l) d) = snd (last (p :: l) (PRecorded, (cs ++ [c], record_duals (alphas ++ [[]]) a)))) end.
    f_equal. apply last_indep.
Qed.
