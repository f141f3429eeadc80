From Coq Require Import ZArith Lia.
From Verif Require Import Spec.SimilarSpec Proofs.Alike Proofs.Similar Proofs.Similar2.

Lemma Forall2_app2 {A A'} (Q : A -> A' -> Prop) l l' r r' : Forall2 Q l l' -> Forall2 Q r r' -> Forall2 Q (l ++ r) (l' ++ r').
Proof. intros F G. induction F; cbn; auto. Qed.
Lemma Forall2_nth {A A'} (Q : A -> A' -> Prop) l l' : Forall2 Q l l' -> forall i a, nth_error l i = Some a -> exists a', nth_error l' i = Some a' /\ Q a a'.
Proof. induction 1 as [|b b' l l' H _ IH]; intros [|i] a E; try discriminate; cbn in E |- *; [injection E as <-; eauto|eauto]. Qed.
Lemma in_combine_nth {A A'} (l : list A) (l' : list A') i a a' : nth_error l i = Some a -> nth_error l' i = Some a' -> In (a, a') (combine l l').
Proof.
  revert l' i. induction l as [|b l IH]; intros [|b' l'] [|i] E E'; try discriminate; cbn in E, E' |- *; [left; congruence|right; eauto].
Qed.

Section Cutting.
Context {X X' Y Y' : Type}.
Variables (n n' : nat) (V : list Qc -> list Qc -> Prop) (L : X -> X' -> Y -> Y' -> Prop).
Hypothesis HV : isometry n n' V.
Notation LL := (sample_label L).
Variables (S : list (X * Y)) (S' : list (X' * Y')).

(** ** n-slack *)
Notation NC := (similar_ncon V L).
Notation NCS := (similar_ncons V L).
Lemma prune_sample_sim {A A'} (Q : A -> A' -> Prop) limit window s s' counts a : Forall2 Q s s' ->
  rel_res (fun q q' => Forall2 Q (fst q) (fst q') /\ snd q = snd q') (prune_sample limit window s counts a) (prune_sample limit window s' counts a).
Proof.
  intro F. unfold prune_sample. rewrite (Forall2_length_eq _ _ _ F). destruct (ensure _ _); [|reflexivity]. cbn [bind].
  generalize (zipw (fun c v => if Qcltb v limit then Datatypes.S c else c) (if (length counts <? length s')%nat then counts ++ [0%nat] else counts) a). intro cs.
  cbn [rel_res fst snd]. unfold keep_counts. clear counts. revert cs. induction F as [|b b' s s' HQ _ IH]; intros [|c cs]; cbn; [split; constructor|split; constructor|split; constructor|].
  destruct (IH cs) as [I1 I2]. destruct (c <=? window)%nat; cbn; [split; [constructor; assumption|congruence]|auto].
Qed.
Lemma prune_loop_sim limit window cs cs' T T' : each NCS T T' cs cs' -> forall active a,
  rel_res (fun q q' => each NCS T T' (fst q) (fst q') /\ snd q = snd q') (prune_loop limit window cs active a) (prune_loop limit window cs' active a).
Proof.
  induction 1 as [|p p' s s' T T' cs cs' H _ IH]; intros active a; cbn [prune_loop]; [split; [constructor|reflexivity]|].
  assert (HL := Forall2_length_eq _ _ _ H). destruct H as [|c c' s s' HC F].
  - apply (rel_bind _ _ _ _ _ _ (IH (tl active) a)). intros [q1 q2] [q1' q2'] [Q1 Q2]. cbn in Q1, Q2 |- *. subst q2'. split; [constructor; [constructor|exact Q1]|reflexivity].
  - destruct active as [|k active]; [reflexivity|]. rewrite <- HL.
    apply (rel_bind _ _ _ _ _ _ (prune_sample_sim (NC p p') limit window _ _ k _ (Forall2_cons _ _ HC F))). intros [r1 r2] [r1' r2'] [R1 R2]. cbn in R1, R2.
    apply (rel_bind _ _ _ _ _ _ (IH active (skipn (length (c :: s)) a))). intros [q1 q2] [q1' q2'] [Q1 Q2]. cbn in Q1, Q2 |- *. subst. split; [constructor; assumption|reflexivity].
Qed.
Lemma each_psis T T' cs cs' : each NCS T T' cs cs' ->
  Forall2 V (map (fun c => fst (ncon_pair c)) (concat cs)) (map (fun c => fst (ncon_pair c)) (concat cs')) /\
  map (fun c => snd (ncon_pair c)) (concat cs) = map (fun c => snd (ncon_pair c)) (concat cs') /\ map (@length _) cs = map (@length _) cs'.
Proof.
  induction 1 as [|p p' s s' T T' cs cs' H _ (I1 & I2 & I3)]; cbn [concat map]; [repeat split; constructor|]. rewrite !map_app, I2, I3, (Forall2_length_eq _ _ _ H). split; [|split; [|reflexivity]].
  - apply Forall2_app2; [|exact I1]. clear - H. induction H as [|c c' s s' (_ & H & _) _ IH]; cbn; constructor; [exact H|exact IH].
  - f_equal. clear - H. induction H as [|c c' s s' (_ & _ & H) _ IH]; cbn [map]; [reflexivity|]. rewrite IH. f_equal. exact H.
Qed.
Definition same_params (prm prm' : ns_params) : Prop :=
  ns_C prm = ns_C prm' /\ ns_max_iter prm = ns_max_iter prm' /\ ns_tol prm = ns_tol prm' /\ ns_check prm = ns_check prm' /\ ns_break prm = ns_break prm' /\
  similar_neg V n n' (ns_neg prm) (ns_neg prm') /\ ns_batch prm = ns_batch prm' /\ ns_threshold prm = ns_threshold prm' /\ ns_window prm = ns_window prm'.
Variables (prm prm' : ns_params).
Hypothesis HP : same_params prm prm'.
Definition same_qp (q : list Qc * Qc * list (list (ncon Y)) * list (list nat)) (q' : list Qc * Qc * list (list (ncon Y')) * list (list nat)) : Prop :=
  let '(w, o, c, a) := q in let '(w', o', c', a') := q' in V w w' /\ o = o' /\ each NCS S S' c c' /\ a = a'.
Lemma run_qp_sim solve f f' : (forall r, f r = f' r) -> run_qp solve f = run_qp solve f'.
Proof. intro H. unfold run_qp. rewrite !H. reflexivity. Qed.
Lemma solve_n_sim solve k cs cs' active : each NCS S S' cs cs' -> rel_res same_qp (solve_n_slack_qp solve prm k cs active) (solve_n_slack_qp solve prm' k cs' active).
Proof.
  intro E. destruct HP as (P1 & P2 & P3 & P4 & P5 & P6 & P7 & P8 & P9). unfold solve_n_slack_qp. destruct (each_psis _ _ _ _ E) as (F & E1 & E2). cbv zeta.
  rewrite (run_qp_sim solve _ _ (fun r => n_slack_problem_V n n' V HV (ns_C prm) _ _ k _ _ (map (fun c => snd (ncon_pair c)) (concat cs)) (map (@length _) cs) r F P6)), P1, E1, E2.
  destruct (run_qp _ _) as [[a o]|]; [|reflexivity]. cbn [bind fst snd].
  apply (rel_bind (fun q q' => each NCS S S' (fst q) (fst q') /\ snd q = snd q')).
  { unfold prune_constraints. rewrite P9, P8, P1. destruct (ns_window prm' =? 0)%nat; [split; [exact E|reflexivity]|]. apply prune_loop_sim. exact E. }
  intros [q1 q2] [q1' q2'] [Q1 Q2]. cbn in Q1, Q2. apply (rel_bind V); [apply (rel_weights n n' V HV); exact F|]. intros w w' HVW. cbn. auto.
Qed.
Lemma check_old_sim w w' slack p p' old old' : V w w' -> NCS p p' old old' -> check_old prm w slack old = check_old prm' w' slack old'.
Proof.
  intros HVW F. destruct HP as (_ & _ & _ & _ & P5 & _). induction F as [|c c' old old' (_ & H & E) _ IH]; [reflexivity|]. cbn [check_old].
  rewrite (rel_dot n n' V HV _ _ _ _ HVW H). destruct (np_dot _ _); [|reflexivity]. cbn [bind]. rewrite E, P5, IH. reflexivity.
Qed.
Variables (yeq : Y -> Y -> bool) (yeq' : Y' -> Y' -> bool).
Hypothesis HQ : similar_eq L S S' yeq yeq'.
Lemma check_bad_sim w w' p p' h h' slack old old' : In (p, p') (combine S S') -> V w w' -> LL p p' h h' -> NCS p p' old old' ->
  check_bad_constraint yeq prm w h slack old = check_bad_constraint yeq' prm' w' h' slack old'.
Proof.
  intros HI HVW Hh F. unfold check_bad_constraint. destruct (Qcltb slack small); [reflexivity|].
  replace (existsb (fun c => yeq' h' (fst (fst c))) old') with (existsb (fun c => yeq h (fst (fst c))) old).
  - destruct (existsb _ _); [reflexivity|]. destruct (HP) as (_ & _ & _ & P4 & _). rewrite P4, (check_old_sim w w' slack p p' old old' HVW F). reflexivity.
  - induction F as [|c c' old old' (H & _) _ IH]; [reflexivity|]. cbn. rewrite (HQ p p' h h' _ _ HI Hh H), IH. reflexivity.
Qed.
Lemma append_sim {A A'} (Q : X * Y -> X' * Y' -> A -> A' -> Prop) T T' cs cs' : each (fun p p' => Forall2 (Q p p')) T T' cs cs' -> forall i p p' c c', nth_error T i = Some p -> nth_error T' i = Some p' -> Q p p' c c' ->
  rel_res (each (fun p p' => Forall2 (Q p p')) T T') (append_at i c cs) (append_at i c' cs').
Proof.
  induction 1 as [|p p' s s' T T' cs cs' H E IH]; intros [|i] q q' c c' E1 E2 HQQ; try discriminate; cbn [nth_error] in E1, E2.
  - injection E1 as <-. injection E2 as <-. cbn. constructor; [apply Forall2_app2; [exact H|constructor; [exact HQQ|constructor]]|exact E].
  - cbn [append_at]. apply (rel_bind _ _ _ _ _ _ (IH i q q' c c' E1 E2 HQQ)). intros r r' Hr. cbn. constructor; assumption.
Qed.
Definition same_cand (q : nat * (Y * list Qc * Qc * Qc)) (q' : nat * (Y' * list Qc * Qc * Qc)) : Prop :=
  fst q = fst q' /\ exists p p', nth_error S (fst q) = Some p /\ nth_error S' (fst q) = Some p' /\ same_constraint V L p p' (snd q) (snd q').
Lemma gather_sim w w' cands cands' : V w w' -> Forall2 same_cand cands cands' -> forall cs cs' new slacks, each NCS S S' cs cs' ->
  rel_res (fun q q' => each NCS S S' (fst (fst q)) (fst (fst q')) /\ snd (fst q) = snd (fst q') /\ snd q = snd q') (gather yeq prm w cands cs new slacks) (gather yeq' prm' w' cands' cs' new slacks).
Proof.
  intros HVW F. induction F as [|[i [[[h d] s] l]] [i' [[[h' d'] s'] l']] cands cands' (EI & p & p' & E1 & E2 & (Hh & Hd & Hs & Hl)) _ IH]; intros cs cs' new slacks HC; cbn [gather]; [split; [exact HC|split; reflexivity]|].
  cbn [fst snd] in EI, E1, E2. subst i' s' l'. destruct (negb (Qcltb 0 l)); [apply IH; exact HC|].
  destruct (each_nth _ _ _ _ _ HC i p p' E1 E2) as (old & old' & N1 & N2 & HO). rewrite N1, N2. cbn [bind].
  rewrite (check_bad_sim w w' p p' h h' s old old' (in_combine_nth _ _ _ _ _ E1 E2) HVW Hh HO). destruct (check_bad_constraint yeq' _ _ _ _ _) as [[|]|]; cbn [bind]; [apply IH; exact HC| |reflexivity].
  apply (rel_bind (each NCS S S')).
  - apply (append_sim NC S S' cs cs' HC i p p' _ _ E1 E2). repeat split; assumption.
  - intros c c' Hc. apply IH. exact Hc.
Qed.
Lemma seq_cands lo k B B' cs cs' : each (same_constraint V L) B B' cs cs' -> forall (lo0 : nat),
  (forall j p, nth_error B j = Some p -> nth_error S (lo0 + j) = Some p) -> (forall j p, nth_error B' j = Some p -> nth_error S' (lo0 + j) = Some p) -> lo = lo0 ->
  Forall2 same_cand (combine (seq lo k) cs) (combine (seq lo k) cs').
Proof.
  intro E. revert lo k. induction E as [|p p' c c' B B' cs cs' H _ IH]; intros lo k lo0 H1 H2 ->; [destruct k; constructor|]. destruct k as [|k]; [constructor|]. cbn [seq combine]. constructor.
  - split; [reflexivity|]. exists p, p'. cbn [fst snd]. assert (A := H1 0%nat p eq_refl). assert (A' := H2 0%nat p' eq_refl). rewrite Nat.add_0_r in A, A'. auto.
  - apply (IH (Datatypes.S lo0) k (Datatypes.S lo0)); [| |reflexivity].
    + intros j q Hq. rewrite Nat.add_succ_l, <- Nat.add_succ_r. apply H1. exact Hq.
    + intros j q Hq. rewrite Nat.add_succ_l, <- Nat.add_succ_r. apply H2. exact Hq.
Qed.
Lemma slice_nth {A} lo hi (l : list A) j p : nth_error (slice lo hi l) j = Some p -> nth_error l (lo + j) = Some p.
Proof.
  unfold slice. intro H. assert (Hj : (j < hi - lo)%nat). { assert (nth_error (firstn (hi - lo) (skipn lo l)) j <> None) by congruence. apply nth_error_Some in H0. rewrite firstn_length in H0. lia. }
  assert (H2 : nth_error (skipn lo l) j = Some p).
  { clear - H Hj. revert j H Hj. generalize (skipn lo l). intro r. generalize (hi - lo)%nat. intro k. revert r. induction k as [|k IH]; intros r j H Hj; [lia|].
    destruct r as [|a r]; [destruct j; discriminate|]. destruct j as [|j]; [exact H|]. cbn in H |- *. apply IH; [exact H|lia]. }
  clear H Hj. revert l H2. induction lo as [|lo IH]; intros l H2; [exact H2|]. destruct l as [|a l]; [destruct j; discriminate|]. cbn in H2 |- *. apply IH. exact H2.
Qed.
Definition same_ns3 (q : ns_state Y * nat * Qc) (q' : ns_state Y' * nat * Qc) : Prop := similar_ns V L S S' (fst (fst q)) (fst (fst q')) /\ snd (fst q) = snd (fst q') /\ snd q = snd q'.
Section Model.
Variables (m : smodel X Y) (m' : smodel X' Y').
Hypothesis HM : similar_samples V L n n' m m' S S'.
Lemma ns_batch_sim solve k b st st' slacks : similar_ns V L S S' st st' -> rel_res same_ns3 (ns_batch_step yeq solve prm m S k b st slacks) (ns_batch_step yeq' solve prm' m' S' k b st' slacks).
Proof.
  intros (W & C & A & O). unfold ns_batch_step. cbv zeta.
  apply (rel_bind _ _ _ _ _ _ (rel_fcs n n' V L HV m m' (proj1 HM) _ _ _ _ true (Forall2_slice _ (fst b) (snd b) _ _ (proj2 HM)) W)). intros cs cs' Hcs.
  apply (rel_bind _ _ _ _ _ _ (gather_sim _ _ _ _ W (seq_cands (fst b) (snd b - fst b) _ _ cs cs' Hcs (fst b) (fun j p => slice_nth _ _ _ j p) (fun j p => slice_nth _ _ _ j p) eq_refl) _ _ 0 slacks C)).
  intros [[c new] sl] [[c' new'] sl'] (HC & E1 & E2). cbn in HC, E1, E2. subst new' sl'. destruct (new =? 0)%nat.
  - repeat split; cbn; assumption.
  - rewrite A. apply (rel_bind _ _ _ _ _ _ (solve_n_sim solve k c c' (st_active st') HC)). intros [[[w o] cc] ac] [[[w' o'] cc'] ac'] (Q1 & Q2 & Q3 & Q4). repeat split; cbn; congruence || assumption.
Qed.
Lemma ns_batches_sim solve k bs : forall st st' new slacks, similar_ns V L S S' st st' -> rel_res same_ns3 (ns_batches yeq solve prm m S k bs st new slacks) (ns_batches yeq' solve prm' m' S' k bs st' new slacks).
Proof.
  induction bs as [|b bs IH]; intros st st' new slacks H; cbn [ns_batches]; [repeat split; apply H|].
  apply (rel_bind _ _ _ _ _ _ (ns_batch_sim solve k b st st' slacks H)). intros [[s q] l] [[s' q'] l'] (HS & E1 & E2). cbn in HS, E1, E2. subst. apply IH. exact HS.
Qed.
End Model.
Lemma ns_loop_sim solve nn k : forall it m m' sw sw' st st' curve primal,
  similar_samples V L n n' m m' S S' -> similar_switch V L n n' sw sw' S S' -> similar_ns V L S S' st st' ->
  rel_res (fun q q' => let '(s, c, p, r, mm) := q in let '(s', c', p', r', mm') := q' in
             similar_ns V L S S' s s' /\ c = c' /\ p = p' /\ r = r' /\ similar_samples V L n n' mm mm' S S')
    (ns_loop yeq solve prm S nn k it m sw st curve primal) (ns_loop yeq' solve prm' S' nn k it m' sw' st' curve primal).
Proof.
  induction k as [|k IH]; intros it m m' sw sw' st st' curve primal HM HW Hst; cbn [ns_loop]; [split; [|split; [|split; [|split]]]; auto|].
  assert (HP2 := HP). destruct HP2 as (P1 & _ & P3 & _ & _ & _ & P7 & _). rewrite P1, P3, P7.
  destruct (batch_slices _ nn) as [bs|]; [|reflexivity]. cbn [bind]. apply (rel_bind _ _ _ _ _ _ (ns_batches_sim m m' HM solve nn bs st st' 0 0 Hst)).
  intros [[s new] sl] [[s' new'] sl'] (HS & E1 & E2). cbn in HS, E1, E2. subst new' sl'. assert (HS2 := HS). destruct HS2 as (W & _ & _ & O). rewrite O. destruct (st_objective s') as [o|]; [|reflexivity]. cbn [bind].
  rewrite (V_norm n n' V HV _ _ W). match goal with |- context [if ?c then _ else _] => destruct c end.
  - destruct sw as [m2|], sw' as [m2'|]; cbn in HW; try contradiction; [apply IH; [exact HW|exact I|exact HS]|]. split; [|split; [|split; [|split]]]; auto.
  - apply IH; assumption.
Qed.
Lemma sim_ns_fit solve m m' sw sw' cs cs' old : similar_samples V L n n' m m' S S' -> similar_switch V L n n' sw sw' S S' ->
  match cs, cs' with Some c, Some c' => each NCS S S' c c' | None, None => True | _, _ => False end ->
  rel_res (fun q q' => similar_ns V L S S' (fst (fst (fst q))) (fst (fst (fst q'))) /\ snd (fst (fst q)) = snd (fst (fst q')) /\ snd (fst q) = snd (fst q') /\ snd q = snd q')
    (ns_fit yeq solve prm m sw (map fst S) (map snd S) cs old) (ns_fit yeq' solve prm' m' sw' (map fst S') (map snd S') cs' old).
Proof.
  intros HM HW HC. unfold ns_fit. rewrite !map_length, !combine_pairs, (Forall2_length_eq _ _ _ (proj2 HM)). assert (HP2 := HP). destruct HP2 as (P1 & P2 & _). rewrite P1, P2.
  destruct (proj1 HM) as (E1 & E2 & _). rewrite E1, E2.
  apply (rel_bind (fun q q' => similar_ns V L S S' (fst (fst q)) (fst (fst q')) /\ snd (fst q) = snd (fst q') /\ snd q = snd q')).
  - destruct cs as [c|], cs' as [c'|]; try contradiction.
    + destruct old as [o|]; [|reflexivity]. apply (rel_bind _ _ _ _ _ _ (solve_n_sim solve (length S') c c' (at_active o) HC)). intros [[[w ob] cc] ac] [[[w' ob'] cc'] ac'] (Q1 & Q2 & Q3 & Q4). repeat split; cbn; congruence || assumption.
    + split; [|split; reflexivity]. split; [apply (V_zero n n' V HV)|]. split; [|split; reflexivity]. cbn. clear - HM. destruct HM as [_ F]. revert F. generalize (similar V L m m'). intros R F. induction F; cbn; constructor; auto. constructor.
  - intros [[st curve] primal] [[st' curve'] primal'] (Hst & C1 & C2). cbn in Hst, C1, C2. subst curve' primal'.
    apply (rel_bind _ _ _ _ _ _ (ns_loop_sim solve (length S') (ns_max_iter prm') 0 m m' sw sw' st st' curve primal HM HW Hst)).
    intros [[[[s c] p] r] mm] [[[[s' c'] p'] r'] mm'] (HS & <- & <- & <- & HM2). destruct (ensure _ _); [|reflexivity]. cbn [bind]. assert (HS2 := HS). destruct HS2 as (W & _ & _ & O).
    rewrite (sim_primal n n' V L HV mm mm' (proj1 HM2) S S' _ _ (ns_C prm') NSlack (proj2 HM2) W). destruct (objective_primal mm' _ _ _ _ _); [|reflexivity]. cbn [bind]. rewrite O. destruct (st_objective s'); [|reflexivity]. cbn. auto.
Qed.
End Cutting.

(** ** one slack *)
Section OneSlack.
Context {X X' Y Y' : Type}.
Variables (n n' : nat) (V : list Qc -> list Qc -> Prop) (L : X -> X' -> Y -> Y' -> Prop).
Hypothesis HV : isometry n n' V.
Notation LL := (sample_label L).
Notation OC := (similar_ocon V).
Variables (S : list (X * Y)) (S' : list (X' * Y')).
Definition same_oparams (prm prm' : os_params) : Prop :=
  o_C prm = o_C prm' /\ o_max_iter prm = o_max_iter prm' /\ o_tol prm = o_tol prm' /\ o_check prm = o_check prm' /\ o_break prm = o_break prm' /\
  similar_neg V n n' (o_neg prm) (o_neg prm') /\ o_cache prm = o_cache prm' /\ o_threshold prm = o_threshold prm' /\ o_window prm = o_window prm' /\ o_cache_tol prm = o_cache_tol prm'.
Variables (prm prm' : os_params).
Hypothesis HP : same_oparams prm prm'.
Hypothesis HN : S <> [].

Lemma del_at_sim {A A'} (Q : A -> A' -> Prop) i l l' : Forall2 Q l l' -> Forall2 Q (del_at i l) (del_at i l').
Proof.
  intro F. unfold del_at. revert i. induction F as [|a a' l l' H F IH]; intros [|i]; cbn; [constructor|constructor|exact F|]. constructor; [exact H|]. exact (IH i).
Qed.
Lemma del_loop_sim {A A'} (Q : A -> A' -> Prop) ds : forall cs cs' al, Forall2 Q cs cs' ->
  Forall2 Q (fst (del_loop ds cs al)) (fst (del_loop ds cs' al)) /\ snd (del_loop ds cs al) = snd (del_loop ds cs' al).
Proof. induction ds as [|i ds IH]; intros cs cs' al F; cbn [del_loop]; [auto|]. apply IH. apply del_at_sim. exact F. Qed.
Definition same_o4 (q q' : list Qc * Qc * list (list Qc * Qc) * list (list Qc)) : Prop :=
  let '(w, o, c, a) := q in let '(w', o', c', a') := q' in V w w' /\ o = o' /\ Forall2 OC c c' /\ a = a'.
Lemma ocons_split cs cs' : Forall2 OC cs cs' -> Forall2 V (map fst cs) (map fst cs') /\ map snd cs = map snd cs'.
Proof. induction 1 as [|c c' cs cs' [H E] _ [I1 I2]]; cbn; [split; constructor|]. split; [constructor; assumption|congruence]. Qed.
Lemma solve_1_sim solve k cs cs' al : Forall2 OC cs cs' -> rel_res same_o4 (solve_1_slack_qp solve prm k cs al) (solve_1_slack_qp solve prm' k cs' al).
Proof.
  intro F. assert (HP2 := HP). destruct HP2 as (P1 & P2 & P3 & P4 & P5 & P6 & P7 & P8 & P9 & P10). unfold solve_1_slack_qp. destruct (ocons_split cs cs' F) as [F1 E1].
  rewrite (run_qp_sim solve _ _ (fun r => one_slack_problem_V n n' V HV (o_C prm) _ _ k _ _ (map snd cs) r F1 P6)), P1, E1. destruct (run_qp _ _) as [[a o]|]; [|reflexivity]. cbn [bind fst snd].
  apply (rel_bind (fun q q' => Forall2 OC (fst q) (fst q') /\ snd q = snd q')).
  { unfold os_prune, inactive_of. rewrite P8, P9, (Forall2_length_eq _ _ _ F). destruct (ensure _ _); [|reflexivity]. cbn [bind]. destruct (o_window prm' =? 0)%nat; [split; [exact F|reflexivity]|].
    destruct (max_active _ _) as [ma|]; [|reflexivity]. cbn [bind]. destruct (np_max _); [|reflexivity]. cbn [bind rel_res]. apply del_loop_sim. exact F. }
  intros [q1 q2] [q1' q2'] [Q1 Q2]. cbn in Q1, Q2. apply (rel_bind V); [apply (rel_weights n n' V HV); exact F1|]. intros w w' HVW. cbn. auto.
Qed.
Lemma os_check_bad_sim brk w w' sl viol dj dj' loss old old' : V w w' -> V dj dj' -> Forall2 OC old old' ->
  os_check_bad prm brk w sl viol dj loss old = os_check_bad prm' brk w' sl viol dj' loss old'.
Proof.
  intros HVW Hd F. assert (HP2 := HP). destruct HP2 as (_ & _ & P3 & P4 & _). unfold os_check_bad. rewrite P3, P4.
  replace (existsb (fun c => vec_eqb (fst c) dj' && Qceqb loss (snd c)) old') with (existsb (fun c => vec_eqb (fst c) dj && Qceqb loss (snd c)) old).
  - replace (os_check_old brk w' viol old') with (os_check_old brk w viol old); [reflexivity|].
    clear - HV HVW F. induction F as [|c c' old old' [H E] _ IH]; [reflexivity|]. cbn [os_check_old]. rewrite (rel_dot n n' V HV _ _ _ _ HVW H), E, IH. reflexivity.
  - clear - HV Hd F. induction F as [|c c' old old' [H E] _ IH]; [reflexivity|]. cbn. rewrite (V_eqb n n' V HV _ _ _ _ H Hd), E, IH. reflexivity.
Qed.
Notation CE := (similar_entry V L).
Notation CES := (fun p p' => Forall2 (similar_entry V L p p')).
Variables (ceq : Y -> Y -> res bool) (ceq' : Y' -> Y' -> res bool).
Hypothesis HQ : similar_eq L S S' ceq ceq'.
Section Model.
Variables (bm : bmodel X Y) (bm' : bmodel X' Y').
Hypothesis HB : similar_models V L n n' bm bm'.
Notation m := (bm_s bm).
Notation m' := (bm_s bm').
Notation R := (similar V L m m').
Hypothesis HF : Forall2 R S S'.
Lemma update_sample_sim p p' s s' h h' : R p p' -> In (p, p') (combine S S') -> Forall2 (CE p p') s s' -> LL p p' h h' ->
  rel_res (Forall2 (CE p p')) (update_sample ceq prm m s (fst p) (snd p) h) (update_sample ceq' prm' m' s' (fst p') (snd p') h').
Proof.
  intros HR HI F Hh. unfold update_sample. assert (HP2 := HP). destruct HP2 as (_ & _ & _ & _ & _ & _ & P7 & _).
  rewrite (mapM_Forall2_eq (CE p p') (fun c => ceq h (snd c)) (fun c => ceq' h' (snd c)) s s'); [|intros c c' (_ & _ & H); exact (HQ p p' _ _ _ _ HI Hh H)|exact F].
  destruct (mapM _ s') as [bs|]; [|reflexivity]. cbn [bind]. destruct (existsb _ _); [exact F|]. cbv zeta. rewrite P7, (Forall2_length_eq _ _ _ F).
  apply (rel_bind V); [exact (proj1 (proj1 (proj2 HR) h h' Hh))|]. intros f f' Hf. rewrite (sim_full V L m m' p p' h h' HR Hh). destruct (sm_full_loss m' _ _) as [l|]; [|reflexivity]. cbn [bind rel_res].
  apply Forall2_app2; [destruct (o_cache prm' <? length s')%nat; [destruct F; [constructor|assumption]|exact F]|]. constructor; [|constructor]. repeat split; assumption.
Qed.
Lemma update_samples_sim T T' cache cache' : each CES T T' cache cache' -> forall Yh Yh', each LL T T' Yh Yh' -> Forall2 R T T' -> (forall q, In q (combine T T') -> In q (combine S S')) ->
  rel_res (each CES T T') (update_samples ceq prm m cache (map fst T) (map snd T) Yh) (update_samples ceq' prm' m' cache' (map fst T') (map snd T') Yh').
Proof.
  induction 1 as [|p p' s s' T T' c c' H _ IH]; intros Yh Yh' HY F HI; [inversion HY; constructor|]. inversion HY as [|? ? h h' ? ? hs hs' Hh HY']; subst. inversion F as [|? ? ? ? HR F']; subst.
  cbn [map update_samples]. apply (rel_bind _ _ _ _ _ _ (update_sample_sim p p' s s' h h' HR (HI (p, p') (or_introl eq_refl)) H Hh)). intros a a' Ha.
  apply (rel_bind _ _ _ _ _ _ (IH hs hs' HY' F' (fun q Hq => HI q (or_intror Hq)))). intros b b' Hb. cbn. constructor; assumption.
Qed.
Lemma update_cache_sim cache cache' Yh Yh' : similar_icache V L S S' cache cache' -> each LL S S' Yh Yh' ->
  rel_res (similar_icache V L S S') (update_cache ceq prm m cache (map fst S) (map snd S) Yh) (update_cache ceq' prm' m' cache' (map fst S') (map snd S') Yh').
Proof.
  intros HC HY. unfold update_cache. assert (HP2 := HP). destruct HP2 as (_ & _ & _ & _ & _ & _ & P7 & _). rewrite P7. destruct (o_cache prm' =? 0)%nat; [exact HC|].
  assert (HE : each CES S S' (match cache with Some c => c | None => map (fun _ => []) Yh end) (match cache' with Some c => c | None => map (fun _ => []) Yh' end)).
  { destruct cache, cache'; cbn in HC; try contradiction; [exact HC|]. clear - HY. induction HY; cbn; constructor; [constructor|assumption]. }
  cbv zeta. apply (rel_bind _ _ _ _ _ _ (update_samples_sim S S' _ _ HE Yh Yh' HY HF (fun q Hq => Hq))). intros c c' Hc. exact Hc.
Qed.
Lemma best_sim w w' p p' s s' : V w w' -> Forall2 (CE p p') s s' -> rel_res (CE p p') (best_entry w s) (best_entry w' s').
Proof.
  intros HVW F. unfold best_entry. rewrite (mapM_Forall2_eq (CE p p') (fun c => let! d := np_dot (fst (fst c)) w in Ok (d + snd (fst c))) (fun c => let! d := np_dot (fst (fst c)) w' in Ok (d + snd (fst c))) s s').
  - destruct (mapM _ s') as [vs|]; [|reflexivity]. cbn [bind]. destruct (np_argmax vs); [|reflexivity]. cbn [bind]. apply rel_index. exact F.
  - intros c c' (H1 & H2 & _). rewrite (rel_dot n n' V HV _ _ _ _ H1 HVW), H2. reflexivity.
  - exact F.
Qed.
Lemma mean_diff_sim a a' b b' k : V a a' -> V b b' -> rel_res V (mean_diff a b k) (mean_diff a' b' k).
Proof.
  intros A B. unfold mean_diff. apply (rel_bind V); [apply (rel_vsub n n' V HV); assumption|]. intros d d' Hd. destruct (ensure _ _); [|reflexivity]. cbn. apply (V_scale n n' V HV). exact Hd.
Qed.
Definition same_oo (r r' : option (list Qc * Qc)) : Prop := match r, r' with Some c, Some c' => OC c c' | None, None => True | _, _ => False end.
Lemma from_cache_sim k gt gt' st st' : V gt gt' -> similar_os V L S S' st st' -> rel_res same_oo (from_cache prm m k gt st) (from_cache prm' m' k gt' st').
Proof.
  intros Hgt (W & C & A & SL & IC & CU & PR & CA & CT & OB). unfold from_cache. destruct (o_icache st) as [c|], (o_icache st') as [c'|]; cbn in IC; try contradiction; [|exact I].
  destruct c as [|s c]; [inversion IC; exact I|]. destruct c' as [|s' c']; [inversion IC|].
  rewrite PR, CU. destruct (last_of (o_primal st')) as [p|]; [|reflexivity]. cbn [bind]. destruct (last_of (o_curve st')) as [o|]; [|reflexivity]. cbn [bind].
  assert (HP2 := HP). destruct HP2 as (_ & _ & _ & _ & _ & _ & _ & _ & _ & P10). rewrite P10, CT. destruct (match o_cache_tol prm' with TolAuto => _ | _ => false end); [exact I|].
  apply (rel_bind (Forall2 (fun e e' => V (fst (fst e)) (fst (fst e')) /\ snd (fst e) = snd (fst e')))).
  - clear HN HF HQ. revert IC. generalize (s :: c) (s' :: c'). intros l l' E. induction E as [|q q' t t' T T' l l' H _ IH]; cbn [mapM]; [constructor|].
    apply (rel_bind _ _ _ _ _ _ (best_sim _ _ q q' t t' W H)). intros e e' (H1 & H2 & _). apply (rel_bind _ _ _ _ _ _ IH). intros es es' Hes. cbn. constructor; auto.
  - intros best best' HBB. apply (rel_bind V).
    + destruct (proj1 HB) as (-> & -> & _). apply (rel_sum_features n n' V HV); [apply (V_zero n n' V HV)|]. clear - HBB. induction HBB as [|e e' l l' [H _] _ IH]; cbn; constructor; [exact H|exact IH].
    + intros acc acc' Hacc. apply (rel_bind _ _ _ _ _ _ (mean_diff_sim _ _ _ _ k Hgt Hacc)). intros dj dj' Hd. cbv zeta. rewrite (rel_dot n n' V HV _ _ _ _ W Hd).
      replace (map (fun c0 => snd (fst c0)) best) with (map (fun c0 : list Qc * Qc * Y' => snd (fst c0)) best') by (clear - HBB; induction HBB as [|e e' l l' [_ H] _ IH]; cbn; [reflexivity|congruence]).
      destruct (np_dot _ _) as [d|]; [|reflexivity]. cbn [bind]. rewrite (os_check_bad_sim false _ _ (o_slack st) _ _ _ _ _ _ W Hd C), SL.
      destruct (os_check_bad _ _ _ _ _ _ _ _) as [[|]|]; cbn; auto. split; [exact Hd|reflexivity].
Qed.
Lemma find_new_sim gt gt' w w' sl cs cs' : V gt gt' -> V w w' -> Forall2 OC cs cs' ->
  rel_res (fun r r' => match r, r' with Some (Yh, c), Some (Yh', c') => each LL S S' Yh Yh' /\ OC c c' | None, None => True | _, _ => False end)
    (find_new prm bm (map fst S) (map snd S) gt w sl cs) (find_new prm' bm' (map fst S') (map snd S') gt' w' sl cs').
Proof.
  intros Hgt HVW HC. unfold find_new. apply (rel_bind _ _ _ _ _ _ (sim_laug n n' V L bm bm' HB S S' w w' HF HN HVW)). intros Yh Yh' HY.
  apply (rel_bind V). { destruct (proj1 HB) as (_ & _ & <-). destruct (sm_rescale m); [apply (sim_joint_true n n' V L bm bm' HB S S' Yh Yh' HF HN HY)|apply (sim_joint n n' V L bm bm' HB S S' Yh Yh' HF HN HY)]. }
  intros f f' Hf. rewrite !map_length, (Forall2_length_eq _ _ _ HF). apply (rel_bind _ _ _ _ _ _ (mean_diff_sim _ _ _ _ _ Hgt Hf)). intros dj dj' Hd.
  rewrite (sim_loss n n' V L bm bm' HB S S' Yh Yh' HF HN HY). destruct (bm_loss bm' _ _) as [ls|]; [|reflexivity]. cbn [bind]. destruct (ensure _ _); [|reflexivity]. cbn [bind]. cbv zeta.
  rewrite (rel_dot n n' V HV _ _ _ _ HVW Hd). destruct (np_dot _ _) as [d|]; [|reflexivity]. cbn [bind].
  assert (HP2 := HP). destruct HP2 as (_ & _ & _ & _ & P5 & _). rewrite P5, (os_check_bad_sim _ _ _ sl _ _ _ _ _ _ HVW Hd HC). destruct (os_check_bad _ _ _ _ _ _ _ _) as [[|]|]; cbn; auto. split; [exact HY|split; [exact Hd|reflexivity]].
Qed.
End Model.
Lemma os_step_sim solve k b c c' st st' : OC c c' -> similar_os V L S S' st st' -> rel_res (similar_os V L S S') (os_step solve prm k b c st) (os_step solve prm' k b c' st').
Proof.
  intros [Hc Ec] (W & C & A & SL & IC & CU & PR & CA & CT & OB). assert (HP2 := HP). destruct HP2 as (P1 & _ & _ & _ & _ & _ & _ & _ & _ & P10). unfold os_step. cbv zeta.
  rewrite (rel_dot n n' V HV _ _ _ _ W Hc). destruct (np_dot _ _) as [d|]; [|reflexivity]. cbn [bind].
  assert (HCC : Forall2 OC (o_cons st ++ [c]) (o_cons st' ++ [c'])) by (apply Forall2_app2; [exact C|constructor; [split; assumption|constructor]]).
  rewrite A. apply (rel_bind _ _ _ _ _ _ (solve_1_sim solve k _ _ (o_alphas st') HCC)). intros [[[w o] cs] al] [[[w' o'] cs'] al'] (Q1 & <- & Q3 & <-).
  rewrite (mapM_Forall2_eq OC (fun c => let! d := np_dot w (fst c) in Ok (- d + snd c)) (fun c => let! d := np_dot w' (fst c) in Ok (- d + snd c)) cs cs'); [| |exact Q3].
  - destruct (mapM _ cs') as [vs|]; [|reflexivity]. cbn [bind]. destruct (np_max vs); [|reflexivity]. cbn [bind rel_res].
    rewrite (V_norm n n' V HV _ _ W), P1, Ec, P10, CT, PR, CU, CA. unfold similar_os. cbn. repeat (split; [assumption||reflexivity|]). reflexivity.
  - intros e e' [H E]. rewrite (rel_dot n n' V HV _ _ _ _ Q1 H), E. reflexivity.
Qed.
Lemma os_loop_sim solve gt gt' k : V gt gt' -> forall bm bm' sw sw' st st', similar_models V L n n' bm bm' -> Forall2 (similar V L (bm_s bm) (bm_s bm')) S S' ->
  similar_bswitch V L n n' sw sw' S S' -> similar_os V L S S' st st' ->
  rel_res (fun q q' => let '(s, r, b) := q in let '(s', r', b') := q' in similar_os V L S S' s s' /\ r = r' /\ similar_models V L n n' b b' /\ Forall2 (similar V L (bm_s b) (bm_s b')) S S')
    (os_loop ceq solve prm (map fst S) (map snd S) gt k bm sw st) (os_loop ceq' solve prm' (map fst S') (map snd S') gt' k bm' sw' st').
Proof.
  intro Hgt. induction k as [|k IH]; intros bm bm' sw sw' st st' HB HF HW Hst; cbn [os_loop]; [split; [|split; [|split]]; auto|].
  rewrite !map_length, <- (Forall2_length_eq _ _ _ HF). apply (rel_bind _ _ _ _ _ _ (from_cache_sim bm bm' HB (length S) gt gt' st st' Hgt Hst)).
  intros [c|] [c'|] Hc; cbn in Hc; try contradiction.
  - apply (rel_bind _ _ _ _ _ _ (os_step_sim solve (length S) true c c' st st' Hc Hst)). intros s s' Hs. apply IH; assumption.
  - assert (Hst2 := Hst). destruct Hst2 as (W & C & A & SL & IC & CU & PR & CA & CT & OB). rewrite SL.
    apply (rel_bind _ _ _ _ _ _ (find_new_sim bm bm' HB HF gt gt' _ _ (o_slack st') _ _ Hgt W C)). intros [[Yh c]|] [[Yh' c']|] Hr; try contradiction.
    + destruct Hr as [HY Hr]. apply (rel_bind _ _ _ _ _ _ (update_cache_sim bm bm' HF _ _ Yh Yh' IC HY)). intros ca ca' Hca. cbv zeta.
      match goal with |- rel_res _ (bind (os_step _ _ _ _ _ ?s) _) (bind (os_step _ _ _ _ _ ?s') _) => assert (Hs0 : similar_os V L S S' s s') by (unfold similar_os; cbn; repeat (split; [assumption||reflexivity|]); assumption) end.
      apply (rel_bind _ _ _ _ _ _ (os_step_sim solve (length S) false c c' _ _ Hr Hs0)). intros s s' Hs. apply IH; assumption.
    + destruct sw as [b|], sw' as [b'|]; cbn in HW; try contradiction; [apply IH; [exact (proj1 HW)|exact (proj2 HW)|exact I|exact Hst]|]. split; [|split; [|split]]; auto.
Qed.
Lemma os_start_sim ws ws' : similar_warm V L S S' ws ws' -> rel_res (similar_os V L S S') (os_start prm n ws) (os_start prm' n' ws').
Proof.
  intro H. assert (HP2 := HP). destruct HP2 as (P1 & _ & P3 & _ & _ & _ & _ & _ & _ & P10). assert (Z := V_zero n n' V HV).
  assert (HZ : Forall2 OC [(vzero n, 0)] [(vzero n', 0)]) by (constructor; [split; [exact Z|reflexivity]|constructor]).
  unfold os_start. rewrite P1, P3, P10. destruct ws as [|a|a], ws' as [|a'|a']; cbn in H; try contradiction.
  - unfold similar_os. cbn. repeat (split; [assumption||reflexivity|]). reflexivity.
  - destruct H as (H1 & H2 & H3 & H4 & H5 & H6 & H7). unfold similar_os. cbn. repeat (split; [assumption||reflexivity|]). reflexivity.
  - destruct H as (H1 & H2 & H3 & H4 & H5 & H6 & H7). destruct (oa_cons a) as [c|], (oa_cons a') as [c'|]; try contradiction; [|reflexivity].
    unfold similar_os. cbn. repeat (split; [assumption||reflexivity|]). reflexivity.
Qed.
Lemma sim_os_fit solve bm bm' sw sw' ws ws' : similar_models V L n n' bm bm' -> Forall2 (similar V L (bm_s bm) (bm_s bm')) S S' ->
  similar_bswitch V L n n' sw sw' S S' -> similar_warm V L S S' ws ws' ->
  rel_res (fun q q' => similar_os V L S S' (fst q) (fst q') /\ snd q = snd q')
    (os_fit ceq solve prm bm sw (map fst S) (map snd S) ws) (os_fit ceq' solve prm' bm' sw' (map fst S') (map snd S') ws').
Proof.
  intros HB HF HW Hws. assert (HP2 := HP). destruct HP2 as (P1 & P2 & _). unfold os_fit. destruct (proj1 HB) as (E1 & E2 & E3). rewrite E1, E2, <- E3.
  apply (rel_bind _ _ _ _ _ _ (os_start_sim ws ws' Hws)). intros st st' Hst.
  apply (rel_bind V). { destruct (sm_rescale (bm_s bm)); [apply (sim_joint_true n n' V L bm bm' HB S S' _ _ HF HN)|apply (sim_joint n n' V L bm bm' HB S S' _ _ HF HN)]; apply (truths V L bm bm'); exact HF. }
  intros gt gt' Hgt. rewrite P2. apply (rel_bind _ _ _ _ _ _ (os_loop_sim solve gt gt' (o_max_iter prm') Hgt bm bm' sw sw' st st' HB HF HW Hst)).
  intros [[s r] b] [[s' r'] b'] (Hs & <- & HB2 & HF2). assert (Hs2 := Hs). destruct Hs2 as (W & C & A & SL & IC & CU & PR & CA & CT & OB).
  rewrite (sim_primal n n' V L HV _ _ (proj1 HB2) S S' _ _ (o_C prm) OneSlack HF2 W), P1. destruct (objective_primal (bm_s b') _ _ _ _ _) as [q|]; [|reflexivity]. cbn [bind]. rewrite OB.
  destruct (o_obj s') as [o|]; [|reflexivity]. cbn [bind rel_res fst snd]. split; [|reflexivity]. unfold similar_os. cbn. rewrite CU, PR, CA. repeat (split; [assumption||reflexivity|]). reflexivity.
Qed.
End OneSlack.
