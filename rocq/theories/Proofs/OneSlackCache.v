From Verif Require Import Model.OneSlack Spec.OneSlackSpec Proofs.Arrays Proofs.LossProofs Proofs.MaxProdProofs Proofs.CRFProofs Proofs.LearnerProofs
  Proofs.QPProofs Proofs.NSlackProofs2 Proofs.NSlackProofs5 Proofs.OneSlackPrune.

Lemma FOP_tl {A} (R : A -> A -> Prop) l : ForallOrdPairs R l -> ForallOrdPairs R (tl l).
Proof. destruct 1; cbn; auto. constructor. Qed.
Lemma FOP_snoc {A} (R : A -> A -> Prop) l x : ForallOrdPairs R l -> Forall (fun a => R a x) l -> ForallOrdPairs R (l ++ [x]).
Proof.
  induction 1 as [|a l HA HF IH]; intro H; cbn [app]. { constructor; constructor. }
  apply Forall_cons_iff in H. destruct H as [H1 H2]. constructor; auto. apply Forall_app. auto.
Qed.
Lemma mapM_Forall2 {A B} (f : A -> res B) l : forall r, mapM f l = Ok r -> Forall2 (fun a b => f a = Ok b) l r.
Proof.
  induction l as [|a l IH]; intros r H; cbn [mapM] in H. injection H as <-. constructor.
  apply bind_ok in H. destruct H as [b [E H]]. apply bind_ok in H. destruct H as [bs [E2 H]]. injection H as <-. constructor; auto.
Qed.

Section cache.
Context {X Y : Type} (ceq : Y -> Y -> res bool) (prm : os_params) (m : smodel X Y).

Lemma update_sample_spec sample x y yh s' : update_sample ceq prm m sample x y yh = Ok s' ->
  (s' = sample /\ exists c, In c sample /\ ceq yh (snd c) = Ok true) \/
  (Forall (fun c => ceq yh (snd c) = Ok false) sample /\ exists f l, sm_joint m x yh None = Ok f /\ sm_full_loss m y yh = Ok l /\
    s' = (if (o_cache prm <? length sample)%nat then tl sample else sample) ++ [(f, l, yh)]).
Proof.
  unfold update_sample. intro H. apply bind_ok in H. destruct H as [there [EM H]]. apply mapM_Forall2 in EM.
  destruct (existsb (fun b => b) there) eqn:EX.
  - injection H as <-. left. split; auto. apply existsb_exists in EX. destruct EX as [b [Hb ->]].
    clear - EM Hb. induction EM as [|c b l r E EM IH]; [destruct Hb|]. destruct Hb as [->|Hb].
    + exists c. simpl; auto. + destruct (IH Hb) as [c' [I E']]. exists c'. simpl; auto.
  - right. apply bind_ok in H. destruct H as [f [Ef H]]. apply bind_ok in H. destruct H as [l [El H]]. injection H as <-. split; [|eauto 6].
    clear - EM EX. induction EM as [|c b l r E EM IH]; constructor; cbn [existsb] in EX; apply orb_false_iff in EX; destruct EX as [-> EX]; auto.
Qed.
Lemma update_sample_distinct sample x y yh s' : update_sample ceq prm m sample x y yh = Ok s' ->
  distinct_results ceq sample -> distinct_results ceq s'.
Proof.
  intros H HD. apply update_sample_spec in H. destruct H as [[-> _]|[HF [f [l [_ [_ ->]]]]]]; auto. unfold distinct_results in *.
  destruct (o_cache prm <? length sample)%nat; apply FOP_snoc; auto.
  - apply FOP_tl; auto.
  - cbn [snd]. destruct sample; cbn [tl]; auto. apply Forall_cons_iff in HF. apply HF.
Qed.
Lemma update_sample_bound sample x y yh s' : update_sample ceq prm m sample x y yh = Ok s' ->
  (length sample <= S (o_cache prm))%nat -> (length s' <= S (o_cache prm))%nat.
Proof.
  intros H HL. apply update_sample_spec in H. destruct H as [[-> _]|[HF [f [l [_ [_ ->]]]]]]; auto. rewrite app_length. cbn [length].
  destruct (Nat.ltb_spec (o_cache prm) (length sample)).
  - destruct sample; cbn [tl length] in *; lia.
  - lia.
Qed.
Lemma update_samples_Forall (P : list (centry Y) -> Prop) :
  (forall s x y yh s', update_sample ceq prm m s x y yh = Ok s' -> P s -> P s') ->
  forall cache Xs Ys Yh c', update_samples ceq prm m cache Xs Ys Yh = Ok c' -> Forall P cache -> Forall P c'.
Proof.
  intro HP. induction cache as [|s c IH]; intros Xs Ys Yh c' H HF; cbn [update_samples] in H; [injection H as <-; auto|].
  destruct Xs as [|x xs], Ys as [|y ys], Yh as [|h hs]; try (injection H as <-; exact HF).
  apply bind_ok in H. destruct H as [s' [E H]]. apply bind_ok in H. destruct H as [c2 [E2 H]]. injection H as <-.
  apply Forall_cons_iff in HF. destruct HF as [F1 F2]. constructor; eauto.
Qed.
Definition cache_all (P : list (centry Y) -> Prop) (c : option (icache Y)) : Prop :=
  match c with None => True | Some l => Forall P l end.
Lemma update_cache_all (P : list (centry Y) -> Prop) cache Xs Ys Yh c' : P [] ->
  (forall s x y yh s', update_sample ceq prm m s x y yh = Ok s' -> P s -> P s') ->
  update_cache ceq prm m cache Xs Ys Yh = Ok c' -> cache_all P cache -> cache_all P c'.
Proof.
  intros P0 HP H HF. unfold update_cache in H. destruct (o_cache prm =? 0)%nat; [injection H as <-; auto|].
  apply bind_ok in H. destruct H as [c2 [E H]]. injection H as <-. cbn. eapply update_samples_Forall; eauto.
  destruct cache as [c|]; auto. apply Forall_forall. intros s Hs. apply in_map_iff in Hs. destruct Hs as [? [<- _]]. exact P0.
Qed.

Lemma best_entry_spec w (cached : list (centry Y)) c : best_entry w cached = Ok c -> best_cached w cached c.
Proof.
  unfold best_entry. intro H. apply bind_ok in H. destruct H as [vs [EM H]]. apply bind_ok in H. destruct H as [i [EI H]].
  apply np_argmax_spec in EI. destruct EI as [L [M _]]. unfold index in H. destruct (nth_error cached i) as [c0|] eqn:E; [|discriminate].
  injection H as ->. split; [eapply nth_error_In; eauto|]. intros c' H'.
  apply In_nth_error in H'. destruct H' as [j Ej]. assert (LV := mapM_length _ _ _ EM).
  assert (V : forall k d, nth_error cached k = Some d -> get1 vs k = dot (fst (fst d)) w + snd (fst d)).
  { intros k d Ek. apply mapM_Forall2 in EM. clear - EM Ek. revert k Ek. induction EM as [|a b l r E EM IH]; intros [|k] Ek; try discriminate.
    - cbn in Ek. injection Ek as ->. apply bind_ok in E. destruct E as [q [Eq E]]. injection E as <-. unfold np_dot in Eq.
      destruct (_ =? _)%nat; [|discriminate]. injection Eq as <-. reflexivity.
    - cbn in Ek. apply IH. auto. }
  rewrite <- (V _ _ Ej), <- (V _ _ E). apply M. rewrite LV. apply (proj1 (nth_error_Some cached j)). rewrite Ej. discriminate.
Qed.
End cache.

(** relaxed solutions: comparing two with the same node marginals fails *)
Lemma relaxed_cache_fails {X} mixed prm (m : smodel X yval) sample x y u pw :
  Forall (fun c => exists u' pw', snd c = YRel u' pw') sample ->
  (exists c pw', In c sample /\ snd c = YRel u pw') ->
  update_sample (constraint_equal mixed) prm m sample x y (YRel u pw) = Err TypeError.
Proof.
  intros HF [c [pw' [I E]]]. unfold update_sample. rewrite (mapM_err _ TypeError); auto.
  - intros a Ha. rewrite Forall_forall in HF. destruct (HF a Ha) as [u' [p' Ea]]. rewrite Ea. cbn [constraint_equal].
    destruct (rows_eqb u u'); eauto.
  - exists c. split; auto. rewrite E. cbn [constraint_equal].
    assert (R : forall v, vec_eqb v v = true).
    { intro v. unfold vec_eqb. rewrite Nat.eqb_refl. cbn [andb]. induction v as [|q v IH]; cbn [combine forallb fst snd]; auto.
      rewrite IH. destruct (Qceqb_spec q q); auto. }
    assert (RR : rows_eqb u u = true).
    { unfold rows_eqb. rewrite Nat.eqb_refl. cbn [andb]. clear - R. induction u as [|v u IH]; cbn [combine forallb fst snd]; auto. rewrite R, IH. reflexivity. }
    rewrite RR. reflexivity.
Qed.

(** ** interruption *)
Lemma del_at_length {A} i (l : list A) : (i < length l)%nat -> length (del_at i l) = (length l - 1)%nat.
Proof. intro H. unfold del_at. rewrite app_length, firstn_length, skipn_length. lia. Qed.
Lemma del_points_lengths {A} ds : forall (cs : list A) alphas, length cs = length alphas ->
  (forall k i, nth_error ds k = Some i -> (i + k < length cs)%nat) ->
  forall pt c al, In (pt, (c, al)) (del_points ds cs alphas) ->
    (pt = PDelCon /\ S (length c) = length al) \/ (pt = PDelBoth /\ length c = length al).
Proof.
  induction ds as [|i ds IH]; intros cs alphas L HI pt c al H; [destruct H|]. cbn [del_points] in H.
  assert (Hi := HI O i eq_refl). destruct H as [H|[H|H]].
  - injection H as <- <- <-. left. split; auto. rewrite del_at_length by lia. lia.
  - injection H as <- <- <-. right. split; auto. rewrite !del_at_length by lia. lia.
  - apply (IH (del_at i cs) (del_at i alphas)); [ | |exact H]. { rewrite !del_at_length by lia. lia. }
    intros k j Ek. rewrite del_at_length by lia. specialize (HI (S k) j Ek). lia.
Qed.
Lemma rev_filter_bound f n : forall k i, nth_error (rev (filter f (seq 0 n))) k = Some i -> (i + k < n)%nat.
Proof.
  induction n as [|n IH]; intros k i H.
  - destruct k; discriminate.
  - rewrite seq_S, filter_app, rev_app_distr in H. cbn [Nat.add filter] in H. destruct (f n); cbn [rev app] in H.
    + destruct k; cbn in H. injection H as <-. lia. specialize (IH _ _ H). lia.
    + specialize (IH _ _ H). lia.
Qed.
Lemma points_lengths {A} prm (c : A) a cs alphas : length cs = length alphas ->
  forall pt c' al', In (pt, (c', al')) (os_points prm c a cs alphas) ->
    match pt with
    | PSolving => length c' = S (length al')
    | PDelCon => S (length c') = length al'
    | _ => length c' = length al'
    end.
Proof.
  intros L pt c' al' H. unfold os_points in H. destruct H as [H|[H|[H|[H|H]]]].
  - injection H as <- <- <-. exact L.
  - injection H as <- <- <-. rewrite app_length. cbn [length]. lia.
  - injection H as <- <- <-. rewrite !app_length. cbn [length]. lia.
  - injection H as <- <- <-. rewrite record_length, !app_length. cbn [length]. lia.
  - destruct (o_window prm =? 0)%nat; [destruct H|]. destruct (inactive_of _ _) as [inact|e] eqn:EI; [|destruct H].
    unfold inactive_of in EI. apply bind_ok in EI. destruct EI as [ma [EM EI]]. apply bind_ok in EI. destruct EI as [st [_ EI]].
    injection EI as <-. assert (Lm : length ma = length (cs ++ [c])).
    { unfold max_active in EM. apply mapM_length in EM. rewrite EM, record_length, !app_length. cbn [length]. lia. }
    apply del_points_lengths in H.
    + destruct H as [[-> H]|[-> H]]; auto.
    + rewrite record_length, !app_length. cbn [length]. lia.
    + intros k i Ek. unfold below_limit in Ek. apply rev_filter_bound in Ek. congruence.
Qed.
Lemma last_indep {A} (l : list A) : forall x d d', last (x :: l) d = last (x :: l) d'.
Proof. induction l as [|y l IH]; intros x d d'; auto. exact (IH y d d'). Qed.
(** the last point is the state the iteration ends with *)
Lemma del_points_last {A} ds : forall (cs : list A) alphas d,
  snd (last (del_points ds cs alphas) (d, (cs, alphas))) = del_loop ds cs alphas.
Proof.
  induction ds as [|i ds IH]; intros cs alphas d; auto. cbn [del_points del_loop].
  rewrite <- (IH (del_at i cs) (del_at i alphas) PDelBoth).
  destruct (del_points ds (del_at i cs) (del_at i alphas)) as [|p l] eqn:E; [reflexivity|].
  change (snd (last (p :: l) (d, (cs, alphas))) = snd (last (p :: l) (PDelBoth, (del_at i cs, del_at i alphas)))).
  f_equal. apply last_indep.
Qed.
