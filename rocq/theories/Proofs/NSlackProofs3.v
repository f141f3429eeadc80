From Coq Require Import ZArith.
From Verif Require Import Model.NSlack Spec.NSlackSpec Proofs.Arrays Proofs.LossProofs Proofs.LearnerProofs
  Proofs.QPProofs Proofs.QPProofs2 Proofs.NSlackProofs Proofs.NSlackProofs2.

Lemma exact_is_ok {X Y} (m : smodel X Y) T d S : oracle_exact m T d S -> oracle_ok m T d S.
Proof.
  intros H p Hp. destruct (H p Hp) as [A B]. split; auto. intros w Hw. destruct (B w Hw) as [yh [E [L _]]]. eauto.
Qed.
Lemma qp_exact_sound s : qp_exact s -> qp_sound s.
Proof. intros H p x v E. destruct (H p x v E) as [[F _] V]. auto. Qed.

(** hinge losses are admissible slacks for every valid working set *)
Lemma violation_margin {X Y} (T : task X Y) w s c : valid_con T s c ->
  length (t_feat T (fst s) (snd s)) = length (t_feat T (fst s) (fst (fst c))) ->
  violation w (ncon_pair c) = margin T w (fst s) (snd s) (fst (fst c)).
Proof.
  destruct c as [[yh dl] l]. intros [L [-> ->]] E. cbn [fst snd] in *. unfold violation, ncon_pair. cbn [fst snd].
  rewrite margin_sub by auto. reflexivity.
Qed.
Lemma hinges_cover {X Y} (T : task X Y) d w S full hs :
  (forall p y', In p S -> t_label T (fst p) y' -> length (t_feat T (fst p) y') = d) ->
  (forall p, In p S -> t_label T (fst p) (snd p) /\ t_loss T (snd p) (snd p) = 0) ->
  wvalid T S full -> hinges T w S hs -> covers w (pairs full) hs.
Proof.
  intros HL HS HV HH. unfold covers, pairs. revert full HV. induction HH as [|p h S hs Hh HH IH]; intros full HV; inversion HV as [|? c ? full' V1 V2]; subst.
  - constructor.
  - cbn [map]. constructor.
    + destruct (HS p (or_introl eq_refl)) as [L0 Z0]. destruct Hh as [_ Hb]. split.
      * rewrite <- (margin_self T w (fst p) (snd p) Z0). apply Hb; auto.
      * intros v Hv. apply in_map_iff in Hv. destruct Hv as [k [<- Hk]]. rewrite Forall_forall in V1. specialize (V1 k Hk).
        assert (LB : t_label T (fst p) (fst (fst k))) by (destruct k as [[yh dl] l]; apply V1).
        rewrite (violation_margin T w p k); auto. rewrite !HL; simpl; auto.
    + apply IH; auto; intros; [apply HL|apply HS]; simpl; auto.
Qed.

Section fit.
Context {X Y : Type} (T : task X Y) (d : nat) (yeq : Y -> Y -> bool) (solve : qp_solver) (prm : ns_params).
Variables (m : smodel X Y) (sw : option (smodel X Y)) (Xs : list X) (Ys : list Y).
Hypothesis HC : 0 <= ns_C prm.
Hypothesis HXY : length Xs = length Ys.
Hypothesis Hd : sm_size m = d.
Hypothesis HO : oracle_ok m T d (combine Xs Ys).
Hypothesis HOS : forall m', sw = Some m' -> oracle_ok m' T d (combine Xs Ys).

Lemma samples_len : length (combine Xs Ys) = length Xs.
Proof. rewrite combine_length. lia. Qed.
Lemma feat_len_ok p y' : In p (combine Xs Ys) -> t_label T (fst p) y' -> length (t_feat T (fst p) y') = d.
Proof. intros Hp HL. destruct (HO p Hp) as [[_ [_ H]] _]. apply H; auto. Qed.
Lemma label_self_ok p : In p (combine Xs Ys) -> t_label T (fst p) (snd p) /\ t_loss T (snd p) (snd p) = 0.
Proof. intros Hp. destruct (HO p Hp) as [[A [B _]] _]. auto. Qed.

Lemma start_inv Q : inv T d (combine Xs Ys) Q (NSState (vzero (sm_size m)) (repeat [] (length Xs)) (repeat [] (length Xs)) None).
Proof.
  split; [cbn; rewrite vzero_length; auto|]. split; [|discriminate]. cbn [st_cons]. unfold wvalid. rewrite <- samples_len.
  generalize (combine Xs Ys). clear. induction l; cbn [length repeat]; constructor; auto.
Qed.

Definition Qsound (w : list Qc) (o : Qc) (groups : list (list (list Qc * Qc))) : Prop :=
  below d (ns_C prm) o groups /\ neg_ok (ns_neg prm) w.
Lemma fit_lower_bound old st curve primal reason : qp_sound solve ->
  ns_fit yeq solve prm m sw Xs Ys None old = Ok (st, curve, primal, reason) ->
  length (st_w st) = d /\
  (forall o, In o curve -> forall w' hs, length w' = d -> hinges T w' (combine Xs Ys) hs -> o <= primal_value (ns_C prm) w' hs) /\
  (forall idx, ns_neg prm = Some idx -> forall i, In i idx -> get1 (st_w st) i <= 0) /\
  Forall2 (fun s c => Forall (valid_con T s) c) (combine Xs Ys) (st_cons st).
Proof.
  intros HS H. unfold ns_fit in H. cbn [bind] in H. apply bind_ok in H. destruct H as [[[[[st' cu] pr] re] m'] [EL H]].
  apply bind_ok in H. destruct H as [u [EN H]]. apply bind_ok in H. destruct H as [p [EP H]].
  apply bind_ok in H. destruct H as [obj [EO H]]. injection H as <- <- <- <-.
  assert (HQ : forall (cs : list (list (ncon Y))) active w obj cs' active', Forall (fun c => length (fst c) = d) (concat (pairs cs)) ->
     solve_n_slack_qp solve prm (length Xs) cs active = Ok (w, obj, cs', active') ->
     length w = d /\ Qsound w obj (pairs cs) /\ Forall2 (fun s s' => incl s' s) cs cs').
  { intros cs active w o cs' active' HF E. destruct (solve_sound solve prm _ d _ _ _ _ _ _ HS HC HF E) as [A [B [C0 D]]].
    split; auto. split; auto. split; auto. }
  assert (LI := loop_inv T d yeq solve prm (combine Xs Ys) (length Xs) feat_len_ok (fun p Hp => proj1 (label_self_ok p Hp)) Qsound HQ
                  (ns_max_iter prm) O m sw _ [] [] _ HO HOS (start_inv Qsound) EL).
  destruct LI as [[I1 [I2 I3]] [_ [I4 [I5 _]]]].
  assert (SO : st_objective st' = Some obj) by (destruct (st_objective st'); congruence).
  destruct (I3 obj SO) as [full [F1 [F2 F3]]].
  split; auto. split; [|split].
  - intros o Ho w' hs Hw' Hh. assert (E : exists w fl, wvalid T (combine Xs Ys) fl /\ Qsound w o (pairs fl)).
    { apply in_app_iff in Ho. destruct Ho as [Ho|[<-|[]]]; [|eauto]. destruct (I4 o Ho) as [[]|Z]; auto. }
    destruct E as [w [fl [V [B _]]]]. unfold primal_value. apply B; auto.
    apply (hinges_cover T d w' (combine Xs Ys)); auto. apply feat_len_ok. apply label_self_ok.
  - apply F3.
  - exact I2.
Qed.

End fit.

(** ** the round without new constraint *)
Section quiet.
Context {X Y : Type} (yeq : Y -> Y -> bool) (solve : qp_solver) (prm : ns_params) (Xs : list X) (Ys : list Y).
Lemma gather_zero w cands : forall (cs : list (list (ncon Y))) new sl cs' sl',
  gather yeq prm w cands cs new sl = Ok (cs', new, sl') ->
  Forall (fun c => let '(i, (yh, dl, slack, loss)) := c in
     ~ 0 < loss \/ exists old, nth_error cs i = Some old /\ check_bad_constraint yeq prm w yh slack old = Ok true) cands.
Proof.
  assert (MON : forall cands (cs : list (list (ncon Y))) new sl cs' new' sl', gather yeq prm w cands cs new sl = Ok (cs', new', sl') -> (new <= new')%nat).
  { clear. induction cands as [|[i [[[yh dl] slack] loss]] cands IH]; intros cs new sl cs' new' sl' H; cbn [gather] in H.
    - injection H as <- <- <-. lia.
    - destruct (negb (Qcltb 0 loss)); [eapply IH; eauto|]. apply bind_ok in H. destruct H as [old [_ H]].
      apply bind_ok in H. destruct H as [[] [_ H]]; [eapply IH; eauto|]. apply bind_ok in H. destruct H as [cs1 [_ H]].
      apply IH in H. lia. }
  induction cands as [|[i [[[yh dl] slack] loss]] cands IH]; intros cs new sl cs' sl' H; cbn [gather] in H; [constructor|].
  destruct (Qcltb_spec 0 loss) as [P|P]; cbn [negb] in H.
  - apply bind_ok in H. destruct H as [old [E1 H]]. apply bind_ok in H. destruct H as [bad [E2 H]]. destruct bad.
    + constructor; [|eapply IH; eauto]. right. exists old. split; auto. destruct (nth_error cs i); congruence.
    + apply bind_ok in H. destruct H as [cs1 [_ H]]. apply MON in H. lia.
  - constructor; [|eapply IH; eauto]. left. apply Qcle_not_lt. exact P.
Qed.

(** the slices cover all samples *)
Lemma slices_cover start n q rest packs i : (start + packs * q + rest = n)%nat -> (rest <= packs)%nat -> (start <= i < n)%nat ->
  exists b, In b (even_slices_from start n q rest packs) /\ (fst b <= i < snd b)%nat.
Proof.
  revert start rest. induction packs as [|k IH]; intros start rest E R I.
  - exfalso. lia.
  - cbn [even_slices_from]. set (len := (q + (if (0 <? rest)%nat then 1 else 0))%nat).
    assert (LEN : (start + len + (k * q + (rest - 1)) = n)%nat).
    { unfold len. destruct (Nat.ltb_spec 0 rest); simpl in E; lia. }
    destruct (Nat.ltb_spec 0 len) as [P|P].
    + replace (Nat.min n (start + len)) with (start + len)%nat by lia.
      destruct (Nat.lt_ge_cases i (start + len)) as [A|A].
      * exists (start, (start + len)%nat). split; [simpl; auto|]. simpl. lia.
      * destruct (IH (start + len)%nat (rest - 1)%nat ltac:(lia) ltac:(lia) ltac:(lia)) as [b [B1 B2]]. exists b. split; auto. simpl; auto.
    + apply IH; lia.
Qed.
Lemma batch_cover z n bs i : batch_slices z n = Ok bs -> (i < n)%nat -> exists b, In b bs /\ (fst b <= i < snd b)%nat.
Proof.
  unfold batch_slices, gen_even_slices. destruct (_ && _)%bool; [discriminate|].
  set (b := if (z =? -1)%Z then n else Z.to_nat z). destruct (b =? 0)%nat; [discriminate|].
  set (packs := ((n + b - 1) / b)%nat). destruct (Nat.ltb_spec packs 1) as [P|P]; [discriminate|]. intros H Hi. injection H as <-.
  apply slices_cover; try lia.
  - cbn [Nat.add]. symmetry. rewrite (Nat.mul_comm packs). rewrite Nat.mul_comm. apply Nat.div_mod. lia.
  - assert (n mod packs < packs)%nat by (apply Nat.mod_upper_bound; lia). lia.
Qed.

Lemma batches_zero m0 bs : forall (st : ns_state Y) new sl sl',
  ns_batches yeq solve prm m0 (combine Xs Ys) (length Xs) bs st new sl = Ok (st, new, sl') ->
  (forall b, In b bs -> exists cands, mapM (fun p => find_constraint m0 (fst p) (snd p) (st_w st) None true) (slice (fst b) (snd b) (combine Xs Ys)) = Ok cands /\
     Forall (fun c => let '(i, (yh, dl, slack, loss)) := c in
       ~ 0 < loss \/ exists old, nth_error (st_cons st) i = Some old /\ check_bad_constraint yeq prm (st_w st) yh slack old = Ok true)
       (combine (seq (fst b) (snd b - fst b)) cands)).
Proof.
  assert (MON : forall bs (st : ns_state Y) new sl st' new' sl', ns_batches yeq solve prm m0 (combine Xs Ys) (length Xs) bs st new sl = Ok (st', new', sl') -> (new <= new')%nat).
  { clear. induction bs; intros st new sl st' new' sl' H; cbn [ns_batches] in H. { injection H as <- <- <-. lia. }
    apply bind_ok in H. destruct H as [[[st1 k] sl1] [_ H]]. apply IHbs in H. lia. }
  assert (KEEP : forall b (st : ns_state Y) sl st' sl', ns_batch_step yeq solve prm m0 (combine Xs Ys) (length Xs) b st sl = Ok (st', O, sl') ->
     st_w st' = st_w st /\ st_active st' = st_active st /\ st_objective st' = st_objective st /\ st_cons st' = st_cons st /\
     exists cands, mapM (fun p => find_constraint m0 (fst p) (snd p) (st_w st) None true) (slice (fst b) (snd b) (combine Xs Ys)) = Ok cands /\
     Forall (fun c => let '(i, (yh, dl, slack, loss)) := c in
       ~ 0 < loss \/ exists old, nth_error (st_cons st) i = Some old /\ check_bad_constraint yeq prm (st_w st) yh slack old = Ok true)
       (combine (seq (fst b) (snd b - fst b)) cands)).
  { intros b st sl st' sl' H. unfold ns_batch_step in H. apply bind_ok in H. destruct H as [cands [E H]].
    apply bind_ok in H. destruct H as [[[cs nw] s1] [EG H]]. destruct (Nat.eqb_spec nw 0) as [->|NE].
    - injection H as <- <-. cbn. repeat (split; auto).
      + clear - EG. revert EG. generalize (combine (seq (fst b) (snd b - fst b)) cands). intro l. generalize O. intro k.
        revert sl. induction l as [|[i [[[yh dl] slack] loss]] l IH]; intros sl EG; cbn [gather] in EG. { congruence. }
        destruct (negb (Qcltb 0 loss)); [eapply IH; eauto|]. apply bind_ok in EG. destruct EG as [old [_ EG]].
        apply bind_ok in EG. destruct EG as [[] [_ EG]]; [eapply IH; eauto|]. apply bind_ok in EG. destruct EG as [cs1 [_ EG]].
        exfalso. assert (MM : forall cands (cs : list (list (ncon Y))) new sl cs' new' sl', gather yeq prm (st_w st) cands cs new sl = Ok (cs', new', sl') -> (new <= new')%nat).
        { clear. induction cands as [|[i [[[yh dl] slack] loss]] cands IH]; intros cs new sl cs' new' sl' H; cbn [gather] in H.
          - injection H as <- <- <-. lia.
          - destruct (negb (Qcltb 0 loss)); [eapply IH; eauto|]. apply bind_ok in H. destruct H as [old [_ H]].
            apply bind_ok in H. destruct H as [[] [_ H]]; [eapply IH; eauto|]. apply bind_ok in H. destruct H as [cs1 [_ H]].
            apply IH in H. lia. }
        apply MM in EG. lia.
      + exists cands. split; auto. eapply gather_zero; eauto.
    - apply bind_ok in H. destruct H as [[[[w obj] cs1] act] [ES H]]. injection H as _ E0 _. congruence. }
  induction bs as [|b bs IH]; intros st new sl sl' H b0 Hb0; [destruct Hb0|]. cbn [ns_batches] in H.
  apply bind_ok in H. destruct H as [[[st1 k] sl1] [E H]]. assert (M := MON _ _ _ _ _ _ _ H). assert (k = O) by lia. subst k.
  apply KEEP in E. destruct E as [E1 [E2 [E3 [E4 E5]]]]. destruct st as [w c a o]. destruct st1 as [w1 c1 a1 o1]. cbn [st_w st_cons st_active st_objective] in *. subst.
  rewrite Nat.add_0_r in H. destruct Hb0 as [<-|Hb0]; auto. exact (IH _ _ _ _ H b0 Hb0).
Qed.
End quiet.
