From Coq Require Import ZArith.
From Verif Require Import Model.NSlack Spec.NSlackSpec Proofs.Arrays Proofs.LossProofs Proofs.LearnerProofs
  Proofs.QPProofs Proofs.QPProofs2 Proofs.QPProofs3 Proofs.NSlackProofs Proofs.NSlackProofs2 Proofs.NSlackProofs3 Proofs.NSlackProofs4 Proofs.PerceptronProofs4.

Lemma prune0_n {A} prm (cs : list (list A)) al a r : ns_window prm = O -> prune_constraints prm cs al a = Ok r -> fst r = cs.
Proof. intros HW H. unfold prune_constraints in H. rewrite HW in H. cbn in H. injection H as <-. reflexivity. Qed.
Lemma weights_length d a psis w : Forall (fun u => length u = d) psis -> weights a psis = Ok w -> length w = d.
Proof.
  intros HF H. destruct psis as [|u psis]. { discriminate. }
  unfold weights in H. rewrite (vstack_ok d) in H by (auto; discriminate). cbn [bind mrows mcols] in H.
  destruct (_ =? _)%nat; [|discriminate]. injection H as <-. apply tab1_length.
Qed.
Lemma pairs_len d {Y} (cs : list (list (ncon Y))) : Forall (fun c => length (fst c) = d) (concat (pairs cs)) ->
  Forall (fun u => length u = d) (map fst (concat (pairs cs))).
Proof. intro HF. apply Forall_forall. intros u Hu. apply in_map_iff in Hu. destruct Hu as [c [<- Hc]]. rewrite Forall_forall in HF. auto. Qed.
Lemma Forall2_refl_incl {A} (cs : list (list A)) : Forall2 (fun s s' => incl s' s) cs cs.
Proof. induction cs; constructor; auto. apply incl_refl. Qed.

Definition extra {A} (sw : option A) : nat := match sw with Some _ => 1 | None => 0 end.

Section count.
Context {X Y : Type} (T : task X Y) (d : nat) (yeq : Y -> Y -> bool) (solve : qp_solver) (prm : ns_params).
Variable samples : list (X * Y).
Variable n : nat.
Hypothesis feat_len : forall p y', In p samples -> t_label T (fst p) y' -> length (t_feat T (fst p) y') = d.
Hypothesis label_self : forall p, In p samples -> t_label T (fst p) (snd p).
Hypothesis HW : ns_window prm = O.
Hypothesis yrefl : forall a, yeq a a = true.

Definition Qany (w : list Qc) (o : Qc) (g : list (list (list Qc * Qc))) : Prop := True.
Lemma solve_any (cs : list (list (ncon Y))) active w obj cs' active' :
  Forall (fun c => length (fst c) = d) (concat (pairs cs)) ->
  solve_n_slack_qp solve prm n cs active = Ok (w, obj, cs', active') ->
  length w = d /\ Qany w obj (pairs cs) /\ Forall2 (fun s s' => incl s' s) cs cs'.
Proof.
  intros HF H. apply solve_inv in H. destruct H as [a [reg [p [_ [_ [_ [EP EW]]]]]]]. apply prune0_n in EP; auto. cbn [fst] in EP. subst cs'.
  split; [|split; [exact I|apply Forall2_refl_incl]]. eapply weights_length; [|exact EW]. apply pairs_len; auto.
Qed.
Notation ginv := (inv T d samples Qany).

Definition hats (s : list (ncon Y)) : list Y := map (fun c => fst (fst c)) s.
Definition nodup (cs : list (list (ncon Y))) : Prop := Forall (fun s => NoDup (hats s)) cs.
Definition total (cs : list (list (ncon Y))) : nat := length (concat cs).

Lemma append_at_total {A} i (c : A) : forall cs cs', append_at i c cs = Ok cs' -> length (concat cs') = S (length (concat cs)).
Proof.
  induction i; intros [|s cs] cs' H; try discriminate; cbn [append_at] in H.
  - injection H as <-. cbn [concat]. rewrite !app_length. cbn. lia.
  - apply bind_ok in H. destruct H as [r [E H]]. injection H as <-. cbn [concat]. rewrite !app_length, (IHi _ _ E). lia.
Qed.
Lemma append_at_nodup i (c : ncon Y) : forall cs cs' old, append_at i c cs = Ok cs' -> nth_error cs i = Some old ->
  ~ In (fst (fst c)) (hats old) -> nodup cs -> nodup cs'.
Proof.
  induction i; intros [|s cs] cs' old H E HI HN; try discriminate; cbn [append_at nth_error] in *; inversion HN; subst.
  - injection E as ->. injection H as <-. constructor; auto. unfold hats. rewrite map_app. cbn [map].
    apply (NoDup_Add (a := fst (fst c)) (l := map (fun c0 => fst (fst c0)) old)). { assert (A := Add_app (fst (fst c)) (map (fun c0 : ncon Y => fst (fst c0)) old) []). rewrite app_nil_r in A. exact A. }
    split; auto.
  - apply bind_ok in H. destruct H as [r [E1 H]]. injection H as <-. constructor; auto. eapply IHi; eauto.
Qed.
Lemma gather_count w cands : forall (cs : list (list (ncon Y))) new sl cs' new' sl', nodup cs ->
  gather yeq prm w cands cs new sl = Ok (cs', new', sl') -> nodup cs' /\ (total cs' + new = total cs + new')%nat.
Proof.
  induction cands as [|[i [[[yh dl] slack] loss]] cands IH]; intros cs new sl cs' new' sl' HN H; cbn [gather] in H.
  - injection H as <- <- <-. auto.
  - destruct (negb (Qcltb 0 loss)). { eapply IH; eauto. }
    apply bind_ok in H. destruct H as [old [E1 H]]. apply bind_ok in H. destruct H as [bad [E2 H]].
    destruct bad. { eapply IH; eauto. }
    apply bind_ok in H. destruct H as [cs1 [E3 H]].
    destruct (nth_error cs i) as [s|] eqn:EN; [|discriminate]. injection E1 as ->.
    assert (NI : ~ In yh (hats old)).
    { intro HI. unfold check_bad_constraint in E2. destruct (Qcltb slack small); [discriminate|].
      assert (EX : existsb (fun c => yeq yh (fst (fst c))) old = true).
      { apply existsb_exists. apply in_map_iff in HI. destruct HI as [c [Ec Hc]]. exists c. split; auto. rewrite Ec. apply yrefl. }
      rewrite EX in E2. discriminate. }
    assert (HN1 := append_at_nodup _ (yh, dl, loss) _ _ _ E3 EN NI HN). assert (TL : total cs1 = S (total cs)) by exact (append_at_total _ _ _ _ E3).
    destruct (IH _ _ _ _ _ _ HN1 H) as [B1 B2]. split; auto. lia.
Qed.
Definition cinv (st : ns_state Y) : Prop := ginv st /\ nodup (st_cons st).
Lemma batch_count m b st sl st' new sl' : oracle_ok m T d samples -> cinv st ->
  ns_batch_step yeq solve prm m samples n b st sl = Ok (st', new, sl') ->
  cinv st' /\ total (st_cons st') = (total (st_cons st) + new)%nat.
Proof.
  intros HO [HI HN] H. destruct (batch_step_inv T d yeq solve prm samples n feat_len label_self Qany solve_any m b st sl st' new sl' HO HI H) as [HI' _].
  unfold ns_batch_step in H. apply bind_ok in H. destruct H as [cands [E H]].
  apply bind_ok in H. destruct H as [[[cs nw] s1] [EG H]]. destruct (gather_count _ _ _ _ _ _ _ _ HN EG) as [G1 G2].
  destruct (Nat.eqb_spec nw 0) as [->|NE].
  - injection H as <- <- <-. split; [split; auto|]. cbn [st_cons]. lia.
  - apply bind_ok in H. destruct H as [[[[w obj] cs1] act] [ES H]]. injection H as <- <- <-.
    apply solve_inv in ES. destruct ES as [a [reg [p [_ [_ [_ [EP _]]]]]]]. apply prune0_n in EP; auto. cbn [fst] in EP. subst cs1.
    split; [split; auto|]. cbn [st_cons]. lia.
Qed.
Lemma batches_count m bs : oracle_ok m T d samples -> forall st new sl st' new' sl', cinv st ->
  ns_batches yeq solve prm m samples n bs st new sl = Ok (st', new', sl') ->
  cinv st' /\ (total (st_cons st') + new = total (st_cons st) + new')%nat.
Proof.
  intro HO. induction bs as [|b bs IH]; intros st new sl st' new' sl' HI H; cbn [ns_batches] in H.
  - injection H as <- <- <-. auto.
  - apply bind_ok in H. destruct H as [[[st1 k] sl1] [E H]]. destruct (batch_count _ _ _ _ _ _ _ HO HI E) as [A1 A2].
    destruct (IH _ _ _ _ _ _ A1 H) as [B1 B2]. split; auto. lia.
Qed.
Lemma loop_count k : forall it m sw st curve primal st' curve' primal' reason m',
  oracle_ok m T d samples -> (forall m', sw = Some m' -> oracle_ok m' T d samples) -> cinv st ->
  ns_loop yeq solve prm samples n k it m sw st curve primal = Ok (st', curve', primal', reason, m') ->
  cinv st' /\ (length curve' + total (st_cons st) <= length curve + total (st_cons st') + extra sw + (match reason with MaxIter => 0 | _ => 1 end))%nat /\
  (reason = MaxIter -> length curve' = (length curve + k)%nat).
Proof.
  induction k as [|k IH]; intros it m sw st curve primal st' curve' primal' reason m' HO HSW HI H; cbn [ns_loop] in H.
  - injection H as <- <- <- <- <-. split; auto. split; [lia|]. intros _. lia.
  - apply bind_ok in H. destruct H as [bs [EB H]]. apply bind_ok in H. destruct H as [[[st1 new] sl] [EQ H]].
    destruct (batches_count m bs HO _ _ _ _ _ _ HI EQ) as [B1 B2].
    apply bind_ok in H. destruct H as [obj [EO H]]. assert (LC : length (curve ++ [obj]) = S (length curve)) by (rewrite app_length; cbn; lia).
    match type of H with context [if ?b then _ else _] => destruct b eqn:STOP end.
    + destruct sw as [m2|].
      * assert (HN : forall m3, None = Some m3 -> oracle_ok m3 T d samples) by discriminate.
        destruct (IH _ _ _ _ _ _ _ _ _ _ _ (HSW m2 eq_refl) HN B1 H) as [C1 [C2 C3]]. split; auto. cbn [extra] in *. split; [lia|]. intro E. specialize (C3 E). lia.
      * assert (ES : st' = st1 /\ curve' = curve ++ [obj] /\ reason = (if (new =? 0)%nat then NoNewConstraint else ObjectiveConverged)) by (repeat split; congruence).
        destruct ES as [-> [-> ->]]. split; auto. split; [cbn [extra]; destruct (new =? 0)%nat; lia|]. intro ER. exfalso. destruct (new =? 0)%nat; discriminate ER.
    + destruct (IH _ _ _ _ _ _ _ _ _ _ _ HO HSW B1 H) as [C1 [C2 C3]]. split; auto. apply orb_false_iff in STOP. destruct STOP as [STOP _]. apply Nat.eqb_neq in STOP.
      split; [lia|]. intro E. specialize (C3 E). lia.
Qed.

(** the working set cannot grow beyond the labels *)
Lemma total_bound (labs : X * Y -> list Y) cs : (forall p y', In p samples -> t_label T (fst p) y' -> In y' (labs p)) ->
  wvalid T samples cs -> nodup cs -> (total cs <= list_sum (map (fun p => length (labs p)) samples))%nat.
Proof.
  unfold wvalid, total. intros HL H. revert HL. clear - H. induction H as [|p s S cs HP HF IH]; intros HL HN; [cbn; lia|].
  inversion HN as [|? ? HN1 HN2]; subst. cbn [concat map]. rewrite app_length. change (list_sum (length (labs p) :: map (fun p => length (labs p)) S)) with (length (labs p) + list_sum (map (fun p => length (labs p)) S))%nat.
  assert (A : (length s <= length (labs p))%nat).
  { replace (length s) with (length (hats s)) by apply map_length. apply NoDup_incl_length; auto. intros y Hy. apply in_map_iff in Hy. destruct Hy as [c [<- Hc]].
    rewrite Forall_forall in HP. specialize (HP c Hc). destruct c as [[yh dl] l]. destruct HP as [HP _]. apply HL; auto. left; auto. }
  specialize (IH ltac:(intros; apply HL; auto; right; auto) HN2). lia.
Qed.
End count.

Section fit.
Context {X Y : Type} (T : task X Y) (d : nat) (yeq : Y -> Y -> bool) (solve : qp_solver) (prm : ns_params).
Variables (m : smodel X Y) (sw : option (smodel X Y)) (Xs : list X) (Ys : list Y).
Hypothesis HXY : length Xs = length Ys.
Hypothesis Hd : sm_size m = d.
Hypothesis HO : oracle_ok m T d (combine Xs Ys).
Hypothesis HOS : forall m', sw = Some m' -> oracle_ok m' T d (combine Xs Ys).

Lemma nfit_split old st curve primal reason : ns_fit yeq solve prm m sw Xs Ys None old = Ok (st, curve, primal, reason) ->
  exists cu pr m' obj p, ns_loop yeq solve prm (combine Xs Ys) (length Xs) (ns_max_iter prm) 0 m sw
     (NSState (vzero (sm_size m)) (repeat [] (length Xs)) (repeat [] (length Xs)) None) [] [] = Ok (st, cu, pr, reason, m') /\
    curve = cu ++ [obj] /\ primal = pr ++ [p] /\ st_objective st = Some obj.
Proof.
  intro H. unfold ns_fit in H. cbn [bind] in H. apply bind_ok in H. destruct H as [[[[[st' cu] pr] re] m'] [EL H]].
  apply bind_ok in H. destruct H as [u [EN H]]. apply bind_ok in H. destruct H as [p [EP H]].
  apply bind_ok in H. destruct H as [obj [EO H]]. injection H as <- <- <- <-. destruct (st_objective st') eqn:ES; [|discriminate]. injection EO as ->.
  exists cu, pr, m', obj, p. auto.
Qed.
Lemma nfit_finite (labs : X * Y -> list Y) old st curve primal reason : ns_window prm = O -> (forall a, yeq a a = true) ->
  (forall p y', In p (combine Xs Ys) -> t_label T (fst p) y' -> In y' (labs p)) ->
  ns_fit yeq solve prm m sw Xs Ys None old = Ok (st, curve, primal, reason) ->
  (length curve <= list_sum (map (fun p => length (labs p)) (combine Xs Ys)) + 2 + extra sw)%nat /\
  (reason = MaxIter -> (ns_max_iter prm <= list_sum (map (fun p => length (labs p)) (combine Xs Ys)) + extra sw)%nat).
Proof.
  intros HW HY HL H. apply nfit_split in H. destruct H as [cu [pr [m' [obj [p [EL [-> [-> EO]]]]]]]].
  assert (C0 : cinv T d (combine Xs Ys) (NSState (vzero (sm_size m)) (repeat [] (length Xs)) (repeat [] (length Xs)) None)).
  { split; [apply (start_inv T d m); auto|]. cbn [st_cons]. unfold nodup. clear. induction (length Xs); cbn [repeat]; constructor; auto. constructor. }
  destruct (loop_count T d yeq solve prm (combine Xs Ys) (length Xs) (feat_len_ok T d m Xs Ys HO) (fun p Hp => proj1 (label_self_ok T d m Xs Ys HO p Hp)) HW HY _ _ _ _ _ _ _ _ _ _ _ _ HO HOS C0 EL) as [[I1 I2] [L1 L2]].
  assert (TB := total_bound T (combine Xs Ys) labs (st_cons st) HL ltac:(apply I1) I2).
  assert (T0 : total (repeat ([] : list (ncon Y)) (length Xs)) = O) by (unfold total; clear; induction (length Xs); cbn; auto).
  cbn [st_cons length] in L1, L2. rewrite T0 in L1. rewrite app_length. cbn [length].
  split. { destruct reason; lia. } intros ->. specialize (L2 eq_refl). lia.
Qed.
End fit.
