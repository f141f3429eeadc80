From Coq Require Import ZArith.
From Verif Require Import Model.NSlack Spec.NSlackSpec Proofs.Arrays Proofs.LossProofs Proofs.LearnerProofs
  Proofs.QPProofs Proofs.QPProofs2 Proofs.NSlackProofs.

Lemma mapM_nth_error {A B} (f : A -> res B) l : forall r k b, mapM f l = Ok r -> nth_error r k = Some b ->
  exists a, nth_error l k = Some a /\ f a = Ok b.
Proof.
  induction l as [|x l IH]; intros r k b H E; cbn [mapM] in H.
  - injection H as <-. destruct k; discriminate.
  - apply bind_ok in H. destruct H as [v [E1 H]]. apply bind_ok in H. destruct H as [vs [E2 H]]. injection H as <-.
    destruct k; cbn [nth_error] in *; [injection E as <-; eauto|]. eapply IH; eauto.
Qed.

Section run.
Context {X Y : Type} (T : task X Y) (d : nat) (yeq : Y -> Y -> bool) (solve : qp_solver) (prm : ns_params).
Variable samples : list (X * Y).
Variable n : nat.
Hypothesis HC : 0 <= ns_C prm.
Hypothesis feat_len : forall p y', In p samples -> t_label T (fst p) y' -> length (t_feat T (fst p) y') = d.
Hypothesis label_self : forall p, In p samples -> t_label T (fst p) (snd p).

(** what is known about a QP result *)
Variable Q : list Qc -> Qc -> list (list (list Qc * Qc)) -> Prop.
Hypothesis HQ : forall (cs : list (list (ncon Y))) active w obj cs' active',
  Forall (fun c => length (fst c) = d) (concat (pairs cs)) ->
  solve_n_slack_qp solve prm n cs active = Ok (w, obj, cs', active') ->
  length w = d /\ Q w obj (pairs cs) /\ Forall2 (fun s s' => incl s' s) cs cs'.

Definition wvalid (cs : list (list (ncon Y))) : Prop := Forall2 (fun s c => Forall (valid_con T s) c) samples cs.

Lemma valid_len s c : In s samples -> valid_con T s c -> length (fst (ncon_pair c)) = d.
Proof.
  intros Hs H. destruct c as [[yh dl] l]. destruct H as [HL [-> _]]. cbn [ncon_pair fst snd].
  rewrite vsub_length; rewrite !feat_len; auto.
Qed.
Lemma wvalid_len cs : wvalid cs -> Forall (fun c => length (fst c) = d) (concat (pairs cs)).
Proof.
  intro H. rewrite concat_pairs. apply Forall_forall. intros u Hu. apply in_map_iff in Hu. destruct Hu as [c [<- Hc]].
  apply in_concat in Hc. destruct Hc as [l [Hl Hc]].
  assert (G : forall S cs, Forall2 (fun s c => Forall (valid_con T s) c) S cs -> In l cs -> exists s, In s S /\ Forall (valid_con T s) l).
  { clear. induction 1; intros []; subst; [exists x; simpl; auto|]. destruct (IHForall2 H1) as [s [A B]]. exists s; simpl; auto. }
  destruct (G _ _ H Hl) as [s [Hs F]]. rewrite Forall_forall in F. apply (valid_len s); auto.
Qed.
Lemma wvalid_incl cs cs' : wvalid cs -> Forall2 (fun s s' => incl s' s) cs cs' -> wvalid cs'.
Proof.
  unfold wvalid. generalize samples. intros S H. revert cs'. induction H; intros cs' H'; inversion H'; subst; constructor; auto.
  rewrite Forall_forall in *. auto.
Qed.

(** the invariant of the main loop *)
Definition inv (st : ns_state Y) : Prop :=
  length (st_w st) = d /\ wvalid (st_cons st) /\
  forall o, st_objective st = Some o ->
    exists full, wvalid full /\ Forall2 (fun s s' => incl s' s) full (st_cons st) /\ Q (st_w st) o (pairs full).

Lemma append_at_Forall2 {A B} (R : B -> list A -> Prop) (i : nat) (c : A) : forall S cs cs',
  Forall2 R S cs -> append_at i c cs = Ok cs' ->
  (forall b s, nth_error S i = Some b -> R b s -> R b (s ++ [c])) -> Forall2 R S cs'.
Proof.
  induction i as [|i IH]; intros S cs cs' F H HR; destruct F; cbn [append_at] in H; try discriminate.
  - injection H as <-. constructor; auto.
  - apply bind_ok in H. destruct H as [r [E H]]. injection H as <-. constructor; auto. eapply IH; eauto.
Qed.

(** candidates of a batch *)
Definition cand_ok (p : nat * (Y * list Qc * Qc * Qc)) : Prop :=
  let '(i, (yh, dl, slack, loss)) := p in
  exists s, nth_error samples i = Some s /\ valid_con T s (yh, dl, loss).
Lemma gather_inv w cands : forall cs new sl cs' new' sl', Forall cand_ok cands -> wvalid cs ->
  gather yeq prm w cands cs new sl = Ok (cs', new', sl') -> wvalid cs' /\ (new <= new')%nat /\ (new' = new -> cs' = cs).
Proof.
  induction cands as [|[i [[[yh dl] slack] loss]] cands IH]; intros cs new sl cs' new' sl' HCd HW H; cbn [gather] in H.
  - injection H as <- <- <-. auto.
  - inversion HCd as [|? ? H1 H2]; subst. destruct (negb (Qcltb 0 loss)). { eapply IH; eauto. }
    apply bind_ok in H. destruct H as [old [E1 H]]. apply bind_ok in H. destruct H as [bad [E2 H]].
    destruct bad. { eapply IH; eauto. }
    apply bind_ok in H. destruct H as [cs1 [E3 H]].
    assert (HW1 : wvalid cs1).
    { eapply append_at_Forall2; [exact HW|exact E3|]. intros b s Hb HF. apply Forall_app. split; auto. constructor; auto.
      destruct H1 as [s' [A1 A2]]. rewrite A1 in Hb. injection Hb as <-. exact A2. }
    destruct (IH _ _ _ _ _ _ H2 HW1 H) as [B1 [B2 B3]]. split; auto. split; [lia|]. intro; lia.
Qed.

Lemma nth_error_slice {A} a b (l : list A) i : (i < b - a)%nat -> nth_error (slice a b l) i = nth_error l (a + i).
Proof.
  unfold slice. intro H.
  assert (G : forall k (l : list A) i, (i < k)%nat -> nth_error (firstn k l) i = nth_error l i).
  { clear. induction k; intros [|x l] [|i] H; try lia; simpl; auto. apply IHk. lia. }
  rewrite G by auto. clear. revert l. induction a; intro l; [reflexivity|]. destruct l; [destruct i; reflexivity|]. apply IHa.
Qed.
Lemma find_valid m s w yh dl sl l : implements m T d (fst s) (snd s) -> length w = d ->
  (exists y0, sm_laug m (fst s) (snd s) w = Ok y0 /\ t_label T (fst s) y0) ->
  find_constraint m (fst s) (snd s) w None true = Ok (yh, dl, sl, l) ->
  valid_con T s (yh, dl, l) /\ sm_laug m (fst s) (snd s) w = Ok yh /\ sl = Qcmax (margin T w (fst s) (snd s) yh) 0.
Proof.
  intros HI Hw [y0 [E L]] H. rewrite (find_constraint_value m T d (fst s) (snd s) w None y0) in H; auto.
  injection H as <- <- <- <-. split; auto. repeat split; auto.
Qed.

Lemma cands_ok m w a b cands : oracle_ok m T d samples -> length w = d ->
  mapM (fun p => find_constraint m (fst p) (snd p) w None true) (slice a b samples) = Ok cands ->
  Forall cand_ok (combine (seq a (b - a)) cands).
Proof.
  intros HO Hw H. apply Forall_forall. intros [i [[[yh dl] sl] l]] Hin.
  apply (In_nth_error) in Hin. destruct Hin as [k Hk].
  assert (E : nth_error (combine (seq a (b - a)) cands) k = match nth_error (seq a (b - a)) k, nth_error cands k with Some u, Some v => Some (u, v) | _, _ => None end).
  { clear. generalize (seq a (b - a)). intro l. revert l cands. induction k; intros [|u l] [|v c]; simpl; auto. destruct (nth_error l k); auto. }
  rewrite E in Hk. destruct (nth_error (seq a (b - a)) k) as [u|] eqn:Eu; [|discriminate].
  destruct (nth_error cands k) as [v|] eqn:Ev; [|discriminate]. injection Hk as -> ->.
  assert (Lk : (k < b - a)%nat). { assert (Z := nth_error_Some (seq a (b - a)) k). rewrite Eu, seq_length in Z. apply Z. discriminate. }
  assert (Eu' : i = (a + k)%nat). { apply (nth_error_nth _ _ O) in Eu. rewrite seq_nth in Eu by auto. congruence. }
  destruct (mapM_nth_error _ _ _ _ _ H Ev) as [s [Es Ef]]. rewrite nth_error_slice in Es by auto. subst i.
  exists s. split; auto. assert (Hs : In s samples) by (eapply nth_error_In; eauto). destruct (HO s Hs) as [HI HL].
  apply (find_valid m s w yh dl sl l); auto.
Qed.

Lemma batch_step_inv m b st sl st' new sl' : oracle_ok m T d samples -> inv st ->
  ns_batch_step yeq solve prm m samples n b st sl = Ok (st', new, sl') ->
  inv st' /\ (new = O -> st' = st) /\ (new <> O -> st_objective st' <> None) /\ (st_objective st <> None -> st_objective st' <> None).
Proof.
  intros HO [I1 [I2 I3]] H. unfold ns_batch_step in H. apply bind_ok in H. destruct H as [cands [E H]].
  apply bind_ok in H. destruct H as [[[cs nw] s1] [EG H]].
  assert (CO := cands_ok m (st_w st) (fst b) (snd b) cands HO I1 E).
  destruct (gather_inv _ _ _ _ _ _ _ _ CO I2 EG) as [G1 [G2 G3]].
  destruct (Nat.eqb_spec nw 0) as [->|NE].
  - injection H as <- <- <-. rewrite (G3 eq_refl). destruct st; cbn in *. split; [|tauto]. split; auto.
  - apply bind_ok in H. destruct H as [[[[w obj] cs1] act] [ES H]]. injection H as <- <- <-.
    destruct (HQ _ _ _ _ _ _ (wvalid_len _ G1) ES) as [Q1 [Q2 Q3]].
    split; [|split; [intro; congruence|split; discriminate]].
    split; [exact Q1|]. split; [exact (wvalid_incl _ _ G1 Q3)|]. intros o Ho. cbn [st_objective st_w st_cons] in *. injection Ho as <-.
    exists cs. auto.
Qed.
Lemma batches_inv m bs : oracle_ok m T d samples -> forall st new sl st' new' sl', inv st ->
  ns_batches yeq solve prm m samples n bs st new sl = Ok (st', new', sl') ->
  inv st' /\ (new <= new')%nat /\ (new' = new -> st' = st) /\ ((new < new')%nat -> st_objective st' <> None) /\
  (st_objective st <> None -> st_objective st' <> None).
Proof.
  intro HO. induction bs as [|b bs IH]; intros st new sl st' new' sl' HI H; cbn [ns_batches] in H.
  - injection H as <- <- <-. repeat (split; auto). intro; lia.
  - apply bind_ok in H. destruct H as [[[st1 k] sl1] [E H]].
    destruct (batch_step_inv _ _ _ _ _ _ _ HO HI E) as [A1 [A2 [A3 A4]]].
    destruct (IH _ _ _ _ _ _ A1 H) as [B1 [B2 [B3 [B4 B5]]]]. split; auto. split; [lia|]. split; [|split].
    + intro EQ. assert (k = O) by lia. subst k. rewrite (A2 eq_refl) in *. apply B3. lia.
    + intro L. destruct (Nat.eq_dec k 0) as [->|NE]; [apply B4; lia|]. apply B5, A3; auto.
    + auto.
Qed.

(** the main loop *)
Lemma loop_inv k : forall it m sw st curve primal r,
  oracle_ok m T d samples -> (forall m', sw = Some m' -> oracle_ok m' T d samples) -> inv st ->
  ns_loop yeq solve prm samples n k it m sw st curve primal = Ok r ->
  let '(st', curve', primal', reason, m') := r in
  inv st' /\ (m' = m \/ sw = Some m') /\
  (forall o, In o curve' -> In o curve \/ exists w full, wvalid full /\ Q w o (pairs full)) /\
  (k <> O -> exists o, st_objective st' = Some o) /\
  (st_objective st <> None -> st_objective st' <> None) /\
  (reason = NoNewConstraint -> exists bs sl' st0, oracle_ok m' T d samples /\ inv st0 /\ (exists o, st_objective st0 = Some o) /\
     batch_slices (ns_batch prm) n = Ok bs /\
     ns_batches yeq solve prm m' samples n bs st0 0 0 = Ok (st0, O, sl') /\ st' = st0).
Proof.
  induction k as [|k IH]; intros it m sw st curve primal r HO HSW HI H; cbn [ns_loop] in H.
  - injection H as <-. repeat (split; auto); try congruence; try discriminate.
  - apply bind_ok in H. destruct H as [bs [EB H]]. apply bind_ok in H. destruct H as [[[st1 new] sl] [EQ H]].
    destruct (batches_inv m bs HO _ _ _ _ _ _ HI EQ) as [B1 [B2 [B3 [B4 B5]]]].
    apply bind_ok in H. destruct H as [obj [EO H]].
    assert (SO : st_objective st1 = Some obj) by (destruct (st_objective st1); congruence).
    assert (NEW : exists w full, wvalid full /\ Q w obj (pairs full)).
    { destruct B1 as [_ [_ B1]]. destruct (B1 obj SO) as [full [F1 [_ F2]]]. eauto. }
    assert (CU : forall o, In o (curve ++ [obj]) -> In o curve \/ exists w full, wvalid full /\ Q w o (pairs full)).
    { intros o Ho. apply in_app_iff in Ho. destruct Ho as [Ho|[<-|[]]]; auto. }
    destruct ((new =? 0)%nat || _) eqn:STOP.
    + destruct sw as [m'|].
      * assert (HN : forall m2, None = Some m2 -> oracle_ok m2 T d samples) by discriminate.
        specialize (IH _ _ _ _ _ _ r (HSW m' eq_refl) HN B1 H).
        destruct r as [[[[st' curve'] primal'] reason] mm]. destruct IH as [C1 [C2 [C3 [C4 [C5 C6]]]]].
        split; auto. split. { destruct C2 as [->|C2]; auto. discriminate. }
        split. { intros o Ho. destruct (C3 o Ho) as [Z|Z]; auto. }
        split. { intros _. destruct (st_objective st') eqn:EE; eauto. exfalso. apply C5; auto. rewrite SO. discriminate. }
        split; auto.
      * injection H as <-. split; auto. split; auto. split; auto. split; [eauto|]. split; auto.
        intro HR. destruct (Nat.eqb_spec new 0) as [->|NE]; [|discriminate].
        rewrite (B3 eq_refl) in *. exists bs, sl, st. repeat (split; auto). eauto.
    + specialize (IH _ _ _ _ _ _ r HO HSW B1 H).
      destruct r as [[[[st' curve'] primal'] reason] mm]. destruct IH as [C1 [C2 [C3 [C4 [C5 C6]]]]].
      split; auto. split; auto. split. { intros o Ho. destruct (C3 o Ho) as [Z|Z]; auto. }
      split. { intros _. destruct (st_objective st') eqn:EE; eauto. exfalso. apply C5; auto. rewrite SO. discriminate. }
      split; auto.
Qed.
End run.
