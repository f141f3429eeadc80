From Coq Require Import ZArith.
From Verif Require Import Model.NSlack Spec.NSlackSpec Proofs.Arrays Proofs.LossProofs Proofs.LearnerProofs
  Proofs.QPProofs Proofs.QPProofs2.

(** ** pruning *)
Lemma filter_combine_incl {A} (f : A * nat -> bool) (l : list A) c : incl (map fst (filter f (combine l c))) l.
Proof.
  intros x Hx. apply in_map_iff in Hx. destruct Hx as [[a n] [<- H]]. apply filter_In in H. destruct H as [H _].
  apply in_combine_l in H. exact H.
Qed.
Lemma prune_sample_incl {A} limit win (s : list A) c a r : prune_sample limit win s c a = Ok r -> incl (fst r) s.
Proof.
  unfold prune_sample. intro H. apply bind_ok in H. destruct H as [u [_ H]]. injection H as <-. cbn [fst]. apply filter_combine_incl.
Qed.
Lemma prune_loop_incl {A} limit win (cs : list (list A)) : forall active a r, prune_loop limit win cs active a = Ok r ->
  Forall2 (fun s s' => incl s' s) cs (fst r).
Proof.
  induction cs as [|s cs IH]; intros active a r H.
  - cbn [prune_loop] in H. injection H as <-. constructor.
  - cbn [prune_loop] in H. destruct s as [|c s].
    + apply bind_ok in H. destruct H as [q [E H]]. injection H as <-. cbn [fst]. constructor; [apply incl_refl|]. eapply IH; eauto.
    + destruct active as [|k active]; [discriminate|]. apply bind_ok in H. destruct H as [p [E1 H]].
      apply bind_ok in H. destruct H as [q [E2 H]]. injection H as <-. cbn [fst]. constructor; [|eapply IH; eauto].
      eapply prune_sample_incl; eauto.
Qed.
Lemma prune_incl {A} prm (cs : list (list A)) active a r : prune_constraints prm cs active a = Ok r ->
  Forall2 (fun s s' => incl s' s) cs (fst r).
Proof.
  unfold prune_constraints. destruct (ns_window prm =? 0)%nat; intro H.
  - injection H as <-. cbn [fst]. clear. induction cs; constructor; auto. apply incl_refl.
  - eapply prune_loop_incl; eauto.
Qed.

(** ** one QP *)
Definition pairs {Y} (cs : list (list (ncon Y))) : list (list (list Qc * Qc)) := map (map ncon_pair) cs.
Lemma concat_pairs {Y} (cs : list (list (ncon Y))) : concat (pairs cs) = map ncon_pair (concat cs).
Proof. unfold pairs. induction cs; simpl; auto. rewrite map_app, IHcs. reflexivity. Qed.
Lemma pairs_length {Y} (cs : list (list (ncon Y))) : map (@length _) (pairs cs) = map (@length _) cs.
Proof. unfold pairs. rewrite map_map. apply map_ext. intro. apply map_length. Qed.

Lemma solve_inv {Y} solve prm n (cs : list (list (ncon Y))) active w obj cs' active' :
  solve_n_slack_qp solve prm n cs active = Ok (w, obj, cs', active') ->
  exists a reg p, (reg = 0 \/ reg = qp_reg) /\ nslack_of (ns_C prm) (ns_neg prm) n (pairs cs) reg = Ok p /\
    solve p = Some (a, - obj) /\ prune_constraints prm cs active a = Ok (cs', active') /\
    weights a (map fst (concat (pairs cs))) = Ok w.
Proof.
  intro H. unfold solve_n_slack_qp in H.
  assert (E1 : map (fun c => fst (ncon_pair c)) (concat cs) = map fst (concat (pairs cs))) by (rewrite concat_pairs, map_map; reflexivity).
  assert (E2 : map (fun c => snd (ncon_pair c)) (concat cs) = map snd (concat (pairs cs))) by (rewrite concat_pairs, map_map; reflexivity).
  rewrite E1, E2, <- pairs_length in H.
  apply bind_ok in H. destruct H as [[a o] [ER H]]. apply bind_ok in H. destruct H as [[c1 c2] [EP H]].
  apply bind_ok in H. destruct H as [w0 [EW H]]. cbn [fst snd] in *. injection H as <- <- <- <-.
  unfold run_qp in ER. apply bind_ok in ER. destruct ER as [p [Ep ER]].
  destruct (solve p) as [[a' v]|] eqn:ES.
  - injection ER as <- <-. exists a', 0, p. repeat (split; auto). rewrite ES. f_equal. f_equal. ring.
  - apply bind_ok in ER. destruct ER as [p' [Ep' ER]]. destruct (solve p') as [[a' v]|] eqn:ES'; [|discriminate].
    injection ER as <- <-. exists a', qp_reg, p'. repeat (split; auto). rewrite ES'. f_equal. f_equal. ring.
Qed.

Lemma nslack_of_nonempty C neg n groups reg p : nslack_of C neg n groups reg = Ok p -> concat groups <> [].
Proof.
  intros H E. unfold nslack_of, n_slack_problem in H. rewrite E in H. discriminate.
Qed.
Lemma qp_reg_nonneg : 0 <= qp_reg.
Proof. discriminate. Qed.
Lemma reg_nonneg reg : reg = 0 \/ reg = qp_reg -> 0 <= reg.
Proof. intros [->| ->]. apply Qcle_refl. apply qp_reg_nonneg. Qed.
Lemma reg_half_nonneg r a : 0 <= r -> 0 <= r * normsq a / (1 + 1).
Proof. intro H. apply Qchalf_nonneg, Qcmult_nonneg; auto. apply normsq_nonneg. Qed.

(** what a sound solver's answer means *)
Definition neg_ok (neg : option (list nat)) (w : list Qc) : Prop :=
  forall idx, neg = Some idx -> forall i, In i idx -> get1 w i <= 0.
Definition below (d : nat) (C o : Qc) (groups : list (list (list Qc * Qc))) : Prop :=
  forall w' xi, length w' = d -> covers w' groups xi -> o <= C * lsum xi + normsq w' / (1 + 1).
Lemma solve_sound {Y} solve prm n d (cs : list (list (ncon Y))) active w obj cs' active' :
  qp_sound solve -> 0 <= ns_C prm -> Forall (fun c => length (fst c) = d) (concat (pairs cs)) ->
  solve_n_slack_qp solve prm n cs active = Ok (w, obj, cs', active') ->
  length w = d /\ neg_ok (ns_neg prm) w /\ below d (ns_C prm) obj (pairs cs) /\
  Forall2 (fun s s' => incl s' s) cs cs'.
Proof.
  intros HS HC HF H. apply solve_inv in H. destruct H as [a [reg [p [Hr [EP [ES [EPr EW]]]]]]].
  assert (HN := nslack_of_nonempty _ _ _ _ _ _ EP).
  destruct (nslack_of_feasible d _ _ _ _ _ _ a HN HF EP) as [FE [VA LG]].
  destruct (HS _ _ _ ES) as [F V]. apply FE in F. destruct F as [F1 [F2 [F3 F4]]].
  assert (HF' : Forall (fun u => length u = d) (map fst (concat (pairs cs)))).
  { apply Forall_forall. intros u Hu. apply in_map_iff in Hu. destruct Hu as [c [<- Hc]]. rewrite Forall_forall in HF. auto. }
  rewrite (weights_comb d) in EW; auto. 2:{ destruct (concat (pairs cs)); [congruence|discriminate]. }
  injection EW as <-. split; [apply comb_length|]. split; [exact F4|]. split.
  - intros w' xi Hw' HX. rewrite VA in V by (rewrite map_length in F1; auto).
    assert (WD := weak_duality_nslack d (ns_C prm) n (pairs cs) a w' xi HF' F1 F2 F3 LG Hw' HX).
    assert (P := reg_half_nonneg reg a (reg_nonneg reg Hr)). fold (dual_value d (pairs cs) a) in WD.
    set (x := reg * normsq a / (1 + 1)) in *. set (y := dual_value d (pairs cs) a) in *. clearbody x y.
    assert (E : obj = y - x) by (rewrite <- (Qcopp_involutive obj), V; ring). rewrite E. qclra.
  - exact (prune_incl _ _ _ _ _ EPr).
Qed.
Definition near_opt (d : nat) (C gap : Qc) (w : list Qc) (groups : list (list (list Qc * Qc))) : Prop :=
  forall w' xi, length w' = d -> covers w' groups xi ->
    C * lsum (map (group_slack w) groups) + normsq w / (1 + 1) <= C * lsum xi + normsq w' / (1 + 1) + gap.
Lemma solve_exact {Y} solve prm n d (cs : list (list (ncon Y))) active w obj cs' active' :
  qp_exact solve -> 0 <= ns_C prm -> ns_neg prm = None -> Forall (fun c => length (fst c) = d) (concat (pairs cs)) ->
  solve_n_slack_qp solve prm n cs active = Ok (w, obj, cs', active') ->
  near_opt d (ns_C prm) (qp_reg * (ofN n * (ns_C prm * ns_C prm))) w (pairs cs).
Proof.
  intros HS HC HNeg HF H. apply solve_inv in H. destruct H as [a [reg [p [Hr [EP [ES [EPr EW]]]]]]].
  assert (HN := nslack_of_nonempty _ _ _ _ _ _ EP). rewrite HNeg in EP.
  destruct (nslack_of_feasible d _ _ _ _ _ _ a HN HF EP) as [FE [VA LG]].
  destruct (HS _ _ _ ES) as [[F OPT] V]. apply FE in F.
  assert (HF' : Forall (fun u => length u = d) (map fst (concat (pairs cs)))).
  { apply Forall_forall. intros u Hu. apply in_map_iff in Hu. destruct Hu as [c [<- Hc]]. rewrite Forall_forall in HF. auto. }
  rewrite (weights_comb d) in EW; auto. 2:{ destruct (concat (pairs cs)); [congruence|discriminate]. } 2:{ apply F. }
  injection EW as <-. intros w' xi Hw' HX.
  assert (SD : _) by (refine (strong_duality_reg d (ns_C prm) n (pairs cs) a reg HC (reg_nonneg reg Hr) HN HF LG F _);
    intros b Hb; destruct (nslack_of_feasible d _ _ _ _ _ _ b HN HF EP) as [FEb [VAb _]];
    apply FEb in Hb; assert (Hb' := Hb); apply OPT in Hb; rewrite VA in Hb by (destruct F as [F1 _]; rewrite map_length in F1; auto);
    apply FEb in Hb'; rewrite VAb in Hb by (destruct Hb' as [F1 _]; rewrite map_length in F1; auto);
    set (x := dual_value d (pairs cs) a) in *; set (y := dual_value d (pairs cs) b) in *;
    set (u := reg * normsq a / (1 + 1)) in *; set (v := reg * normsq b / (1 + 1)) in *; clearbody x y u v; qclra).
  destruct F as [F1 [F2 [F3 F4]]].
  assert (WD := weak_duality_nslack d (ns_C prm) n (pairs cs) a w' xi HF' F1 F2 F3 LG Hw' HX).
  fold (dual_value d (pairs cs) a) in WD.
  assert (RR : reg * (ofN n * (ns_C prm * ns_C prm)) <= qp_reg * (ofN n * (ns_C prm * ns_C prm))).
  { apply Qcmult_le_compat_r.
    - destruct Hr as [->| ->]; [apply qp_reg_nonneg|apply Qcle_refl].
    - apply Qcmult_nonneg; [apply ofN_nonneg|]. apply Qc_sq_nonneg. }
  eapply Qcle_trans; [exact SD|]. set (x := dual_value d (pairs cs) a) in *.
  set (y := reg * (ofN n * (ns_C prm * ns_C prm))) in *. set (z := qp_reg * (ofN n * (ns_C prm * ns_C prm))) in *.
  clearbody x y z. qclra.
Qed.
