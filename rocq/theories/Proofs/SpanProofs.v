(** The cutting-plane learners only visit weights in the span of the joint features. *)
From Verif Require Import Spec.SpanSpec Proofs.Arrays Proofs.LossProofs Proofs.LearnerProofs Proofs.QPProofs Proofs.NSlackProofs Proofs.NSlackProofs2 Proofs.NSlackProofs3.

(** ** subspaces *)
Lemma normsq_zero a : normsq a = 0 -> forall i, get1 a i = 0.
Proof.
  intros H i. destruct (Nat.lt_ge_cases i (length a)) as [Hi|Hi].
  - revert i Hi. unfold normsq in H. revert H. induction a as [|x a IH]; intros H i Hi; cbn [length] in Hi; [lia|].
    rewrite dot_cons in H. assert (A := Qc_sq_nonneg x). assert (B := normsq_nonneg a). unfold normsq in B.
    assert (X : x * x = 0) by (apply Qcle_antisym; qclra). assert (Z : dot a a = 0) by (apply Qcle_antisym; qclra).
    destruct i as [|i]; unfold get1; cbn [nth].
    + destruct (Qcmult_integral _ _ X); assumption.
    + apply (IH Z). lia.
  - unfold get1. apply nth_overflow. exact Hi.
Qed.
Section Sub.
Variables (d : nat) (V : list Qc -> Prop).
Hypothesis HV : subspace d V.
Lemma sub_len a : V a -> length a = d. Proof. apply HV. Qed.
Lemma sub_sub a b : V a -> V b -> V (vsub a b).
Proof.
  intros A B. destruct HV as [_ [L [PL SC]]]. assert (E : vsub a b = vadd a (vscale (- (1)) b)).
  { apply vec_ext. { rewrite vsub_length, vadd_length; rewrite ?vscale_length, ?(L a A), ?(L b B); reflexivity. }
    intros i Hi0. rewrite get1_vsub, get1_vadd by (rewrite ?vscale_length, ?(L a A), ?(L b B); reflexivity).
    rewrite get1_vscale. ring. }
  rewrite E. apply PL; [exact A|]. apply SC. exact B.
Qed.
Lemma comb_cons a a0 p psis : length p = d -> Forall (fun v => length v = d) psis ->
  comb d (a0 :: a) (p :: psis) = vadd (vscale a0 p) (comb d a psis).
Proof.
  intros Hp HF. apply vec_ext. { rewrite vadd_length; rewrite ?vscale_length, ?comb_length; auto. }
  intros i Hi0. rewrite get1_vadd by (rewrite vscale_length, comb_length; exact Hp). rewrite get1_vscale.
  destruct (Nat.lt_ge_cases i d) as [Hi|Hi].
  - unfold comb at 1. rewrite get1_tab1 by exact Hi. cbn [length]. rewrite sumn_S_l. unfold get1 at 1 2. cbn [nth].
    f_equal. unfold comb. rewrite get1_tab1 by exact Hi. reflexivity.
  - unfold get1. rewrite !nth_overflow; rewrite ?comb_length; try lia. ring.
Qed.
Lemma sub_comb psis : forall a, Forall V psis -> V (comb d a psis).
Proof.
  induction psis as [|p psis IH]; intros a F.
  - assert (E : comb d a [] = vzero d). { apply vec_ext. { rewrite comb_length, vzero_length. reflexivity. }
      intros i Hi0. destruct (Nat.lt_ge_cases i d) as [Hi|Hi].
      - unfold comb. rewrite get1_tab1 by exact Hi. cbn [length]. rewrite sumn_O. symmetry. apply get1_vzero.
      - unfold get1. rewrite !nth_overflow; rewrite ?comb_length, ?vzero_length; auto. }
    rewrite E. apply HV.
  - inversion F; subst. destruct a as [|a0 a].
    + assert (E : comb d [] (p :: psis) = vzero d). { apply vec_ext. { rewrite comb_length, vzero_length. reflexivity. }
        intros i Hi0. destruct (Nat.lt_ge_cases i d) as [Hi|Hi].
        - unfold comb. rewrite get1_tab1 by exact Hi. rewrite get1_vzero. apply sumn_zero. intros j _. unfold get1 at 1. destruct j; cbn [nth]; ring.
        - unfold get1. rewrite !nth_overflow; rewrite ?comb_length, ?vzero_length; auto. }
      rewrite E. apply HV.
    + rewrite comb_cons. 2:{ apply sub_len; assumption. } 2:{ eapply Forall_impl; [|eassumption]. apply sub_len. }
      apply HV; [apply HV; assumption|apply IH; assumption].
Qed.
Lemma proj_fix pi w : projection d V pi -> V w -> pi w = w.
Proof.
  intros HP Hw. destruct (HP w (sub_len w Hw)) as [A B].
  assert (L : length (pi w) = length w) by (rewrite !sub_len; auto).
  assert (Z : normsq (vsub (pi w) w) = 0).
  { unfold normsq. rewrite dot_vsub_l by exact L. rewrite B by (apply sub_sub; assumption). ring. }
  apply vec_ext; [exact L|]. intros i Hi0.
  assert (G := normsq_zero _ Z i). rewrite get1_vsub in G by exact L.
  replace (get1 (pi w) i) with (get1 (pi w) i - get1 w i + get1 w i) by ring. rewrite G. ring.
Qed.
End Sub.

(** ** a model that projects the weights before inference *)
Definition project {X Y} (pi : list Qc -> list Qc) (m : smodel X Y) : smodel X Y :=
  SModel (sm_size m) (sm_rescale m) (sm_joint m) (sm_inference m) (fun x y w => sm_laug m x y (pi w)) (sm_tuple m) (sm_loss m) (sm_closs m).
Section Project.
Context {X Y : Type} (T : task X Y) (d : nat) (V : list Qc -> Prop) (pi : list Qc -> list Qc) (S : list (X * Y)).
Hypothesis HV : subspace d V.
Hypothesis HP : projection d V pi.
Hypothesis HF : features_in T V S.
Lemma project_ok m : oracle_ok_on V m T d S -> oracle_ok (project pi m) T d S.
Proof. intros H p Hp. destruct (H p Hp) as [A B]. split; [exact A|]. intros w Hw. exact (B (pi w) (proj1 (HP w Hw))). Qed.
Lemma project_exact m : oracle_exact_on V m T d S -> oracle_exact (project pi m) T d S.
Proof.
  intros H p Hp. destruct (H p Hp) as [A B]. split; [exact A|]. intros w Hw. destruct (HP w Hw) as [P1 P2].
  destruct (B (pi w) P1) as [yh [E [L M]]]. exists yh. split; [exact E|]. split; [exact L|]. intros y' H'.
  rewrite <- !P2 by (apply HF; assumption). apply M. exact H'.
Qed.
Lemma exact_on_ok m : oracle_exact_on V m T d S -> oracle_ok_on V m T d S.
Proof. intros H p Hp. destruct (H p Hp) as [A B]. split; [exact A|]. intros w Hw. destruct (B w Hw) as [yh [E [L _]]]. eauto. Qed.
Lemma project_find (m : smodel X Y) (p : X * Y) w : V w -> find_constraint (project pi m) (fst p) (snd p) w None true = find_constraint m (fst p) (snd p) w None true.
Proof. intros Hw. unfold find_constraint. cbn [project sm_laug]. rewrite (proj_fix d V HV pi w HP Hw). reflexivity. Qed.
Lemma mapM_ext {A B} (f g : A -> res B) l : (forall a, f a = g a) -> mapM f l = mapM g l.
Proof. intros H. induction l as [|a l IH]; cbn [mapM]; [reflexivity|]. rewrite H, IH. reflexivity. Qed.
Lemma project_primal (m : smodel X Y) w Xs Ys C v : V w -> objective_primal (project pi m) w Xs Ys C v = objective_primal m w Xs Ys C v.
Proof. intros Hw. unfold objective_primal. rewrite (mapM_ext _ (fun p : X * Y => find_constraint m (fst p) (snd p) w None true)); [reflexivity|]. intros p. apply project_find, Hw. Qed.
End Project.

(** ** NSlackSSVM *)
Section N.
Context {X Y : Type} (T : task X Y) (d : nat) (V : list Qc -> Prop) (pi : list Qc -> list Qc) (yeq : Y -> Y -> bool) (solve : qp_solver) (prm : ns_params).
Variables (S : list (X * Y)) (n : nat).
Hypothesis HV : subspace d V.
Hypothesis HP : projection d V pi.
Hypothesis HF : features_in T V S.
Hypothesis HL : forall p, In p S -> t_label T (fst p) (snd p).
Definition nin (st : ns_state Y) : Prop := V (st_w st) /\ wvalid T S (st_cons st).
Lemma wvalid_in cs : wvalid T S cs -> Forall V (map fst (concat (pairs cs))).
Proof.
  intros H. rewrite concat_pairs, map_map. apply Forall_forall. intros u Hu. apply in_map_iff in Hu. destruct Hu as [c [<- Hc]].
  apply in_concat in Hc. destruct Hc as [l [Hl Hc]].
  assert (G : forall S cs, Forall2 (fun s c => Forall (valid_con T s) c) S cs -> In l cs -> exists s, In s S /\ Forall (valid_con T s) l).
  { clear. induction 1; intros []; subst; [exists x; simpl; auto|]. destruct (IHForall2 H1) as [s [A B]]. exists s; simpl; auto. }
  destruct (G _ _ H Hl) as [s [Hs F]]. rewrite Forall_forall in F. specialize (F c Hc). destruct c as [[yh dl] l0]. destruct F as [F1 [-> _]].
  cbn [ncon_pair fst snd]. apply (sub_sub d); [exact HV| |]; apply HF; auto.
Qed.
Lemma solve_in cs active w obj cs' active' : wvalid T S cs -> solve_n_slack_qp solve prm n cs active = Ok (w, obj, cs', active') ->
  V w /\ wvalid T S cs'.
Proof.
  intros HW E. destruct (solve_inv solve prm n cs active w obj cs' active' E) as [a [reg [p [_ [EP [_ [EC EW]]]]]]].
  assert (NE := nslack_of_nonempty _ _ _ _ _ _ EP).
  split.
  - assert (F := wvalid_in cs HW). assert (L : length a = length (map fst (concat (pairs cs)))).
    { unfold weights in EW. apply bind_ok in EW. destruct EW as [Psi [E1 E2]].
      assert (FL : Forall (fun v => length v = d) (map fst (concat (pairs cs)))) by (eapply Forall_impl; [|exact F]; apply sub_len, HV).
      rewrite (vstack_ok d) in E1; [|intros Z; apply map_eq_nil in Z; contradiction|exact FL]. injection E1 as <-. cbn [mrows] in E2.
      destruct (Nat.eqb_spec (length a) (length (map fst (concat (pairs cs))))); [assumption|discriminate]. }
    rewrite (weights_comb d) in EW; [|intros Z; apply map_eq_nil in Z; contradiction| |exact L].
    + injection EW as <-. apply (sub_comb d V HV). exact F.
    + eapply Forall_impl; [|exact F]. apply sub_len, HV.
  - apply (wvalid_incl T S cs); [exact HW|]. exact (prune_incl _ _ _ _ _ EC).
Qed.
Lemma batch_agree m b st sl : oracle_ok_on V m T d S -> nin st ->
  ns_batch_step yeq solve prm (project pi m) S n b st sl = ns_batch_step yeq solve prm m S n b st sl /\
  forall st' new sl', ns_batch_step yeq solve prm m S n b st sl = Ok (st', new, sl') -> nin st'.
Proof.
  intros HO [I1 I2].
  assert (E : ns_batch_step yeq solve prm (project pi m) S n b st sl = ns_batch_step yeq solve prm m S n b st sl).
  { unfold ns_batch_step. rewrite (mapM_ext _ (fun p : X * Y => find_constraint m (fst p) (snd p) (st_w st) None true)); [reflexivity|].
    intros p. apply (project_find d V); assumption. }
  split; [exact E|]. intros st' new sl' H. rewrite <- E in H. clear E. unfold ns_batch_step in H. apply bind_ok in H. destruct H as [cands [E H]].
  apply bind_ok in H. destruct H as [[[cs nw] s1] [EG H]].
  assert (CO := cands_ok T d S (project pi m) (st_w st) (fst b) (snd b) cands (project_ok T d V pi S HP m HO) (sub_len d V HV _ I1) E).
  destruct (gather_inv T yeq prm S _ _ _ _ _ _ _ _ CO I2 EG) as [G1 [G2 G3]].
  destruct (Nat.eqb_spec nw 0) as [->|NE].
  - injection H as <- <- <-. split; assumption.
  - apply bind_ok in H. destruct H as [[[[w obj] cs1] act] [ES H]]. injection H as <- <- <-.
    exact (solve_in _ _ _ _ _ _ G1 ES).
Qed.
Lemma batches_agree m bs : oracle_ok_on V m T d S -> forall st new sl, nin st ->
  ns_batches yeq solve prm (project pi m) S n bs st new sl = ns_batches yeq solve prm m S n bs st new sl /\
  forall st' new' sl', ns_batches yeq solve prm m S n bs st new sl = Ok (st', new', sl') -> nin st'.
Proof.
  intros HO. induction bs as [|b bs IH]; intros st new sl HI; cbn [ns_batches].
  - split; [reflexivity|]. intros st' new' sl' H. injection H as <- _ _. exact HI.
  - destruct (batch_agree m b st sl HO HI) as [A B]. rewrite A. destruct (ns_batch_step yeq solve prm m S n b st sl) as [[[st1 k] sl1]|e]; cbn [bind].
    + exact (IH st1 _ sl1 (B _ _ _ eq_refl)).
    + split; [reflexivity|discriminate].
Qed.
Lemma loop_agree k : forall it m sw st curve primal, oracle_ok_on V m T d S -> (forall m', sw = Some m' -> oracle_ok_on V m' T d S) -> nin st ->
  ns_loop yeq solve prm S n k it (project pi m) (option_map (project pi) sw) st curve primal =
    (let! r := ns_loop yeq solve prm S n k it m sw st curve primal in
     let '(st', c, p, reason, mm) := r in Ok (st', c, p, reason, project pi mm)) /\
  forall st' c p reason mm, ns_loop yeq solve prm S n k it m sw st curve primal = Ok (st', c, p, reason, mm) -> nin st'.
Proof.
  induction k as [|k IH]; intros it m sw st curve primal HO HSW HI; cbn [ns_loop].
  - split; [reflexivity|]. intros st' c p reason mm H. injection H as <- _ _ _ _. exact HI.
  - destruct (batch_slices (ns_batch prm) n) as [bs|e]; cbn [bind]; [|split; [reflexivity|discriminate]].
    destruct (batches_agree m bs HO st 0%nat 0 HI) as [A B]. rewrite A.
    destruct (ns_batches yeq solve prm m S n bs st 0 0) as [[[st1 new] sl]|e]; cbn [bind]; [|split; [reflexivity|discriminate]].
    specialize (B _ _ _ eq_refl). destruct (st_objective st1) as [obj|]; cbn [bind]; [|split; [reflexivity|discriminate]].
    match goal with |- context [if ?b then _ else _] => destruct b end.
    + destruct sw as [m'|]; cbn [option_map].
      * apply (IH _ m' None); [apply HSW; reflexivity|discriminate|exact B].
      * split; [reflexivity|]. intros st' c p reason mm H. injection H as <- _ _ _ _. exact B.
    + apply IH; assumption.
Qed.
End N.
Lemma n_agree {X Y} (T : task X Y) d V pi yeq solve prm (m : smodel X Y) sw Xs Ys old :
  subspace d V -> projection d V pi -> length Xs = length Ys -> sm_size m = d -> features_in T V (combine Xs Ys) ->
  oracle_ok_on V m T d (combine Xs Ys) -> (forall m', sw = Some m' -> oracle_ok_on V m' T d (combine Xs Ys)) ->
  ns_fit yeq solve prm (project pi m) (option_map (project pi) sw) Xs Ys None old = ns_fit yeq solve prm m sw Xs Ys None old /\
  forall st curve primal reason, ns_fit yeq solve prm m sw Xs Ys None old = Ok (st, curve, primal, reason) -> V (st_w st).
Proof.
  intros HV HP HXY Hd HF HO HSW. unfold ns_fit. cbn [project sm_size bind].
  set (st0 := NSState (vzero (sm_size m)) (repeat [] (length Xs)) (repeat [] (length Xs)) None).
  assert (I0 : nin T V (combine Xs Ys) st0).
  { split; [cbn [st0 st_w]; rewrite Hd; apply HV|]. exact (proj1 (proj2 (start_inv T d m Xs Ys HXY Hd (fun _ _ _ => True)))). }
  assert (HL : forall p, In p (combine Xs Ys) -> t_label T (fst p) (snd p)) by (intros p Hp; apply (HO p Hp)).
  destruct (loop_agree T d V pi yeq solve prm (combine Xs Ys) (length Xs) HV HP HF HL (ns_max_iter prm) 0 m sw st0 [] [] HO HSW I0) as [A B].
  rewrite A. destruct (ns_loop yeq solve prm (combine Xs Ys) (length Xs) (ns_max_iter prm) 0 m sw st0 [] []) as [[[[[st c] p] reason] mm]|e]; cbn [bind];
    [|split; [reflexivity|discriminate]].
  specialize (B _ _ _ _ _ eq_refl). rewrite (project_primal d V pi HV HP mm (st_w st)) by exact (proj1 B). split; [reflexivity|].
  intros st' curve primal reason' H. apply bind_ok in H. destruct H as [_ [_ H]]. apply bind_ok in H. destruct H as [q [_ H]]. apply bind_ok in H. destruct H as [o [_ H]].
  injection H as <- _ _ _. exact (proj1 B).
Qed.
