From Coq Require Import ZArith Lia.
From Verif Require Import Spec.SimilarSpec Proofs.Alike Proofs.Similar.

Section Similar.
Context {X X' Y Y' : Type}.
Variables (n n' : nat) (V : list Qc -> list Qc -> Prop) (L : X -> X' -> Y -> Y' -> Prop).
Hypothesis HV : isometry n n' V.
Notation LL := (sample_label L).

Section Samples.
Variables (m : smodel X Y) (m' : smodel X' Y').
Hypothesis HS : similar_sizes n n' m m'.
Notation R := (similar V L m m').

Definition same_constraint (p : X * Y) (p' : X' * Y') (c : Y * list Qc * Qc * Qc) (c' : Y' * list Qc * Qc * Qc) : Prop :=
  let '(y, d, s, l) := c in let '(y', d', s', l') := c' in LL p p' y y' /\ V d d' /\ s = s' /\ l = l'.
Lemma rel_fc p p' w w' b : R p p' -> V w w' ->
  rel_res (same_constraint p p') (find_constraint m (fst p) (snd p) w None b) (find_constraint m' (fst p') (snd p') w' None b).
Proof.
  intros (HT & HY & HW) HVW. unfold find_constraint. apply (rel_bind (LL p p')); [exact (proj2 (HW w w' HVW))|].
  intros h h' Hh. destruct (HY h h' Hh) as (J1 & J2 & T & E1 & E2), (HY _ _ HT) as (K1 & K2 & _). destruct HS as (_ & _ & ER).
  apply (rel_bind V). { rewrite <- ER. destruct (sm_rescale m); assumption. } intros f f' Hf. cbv zeta.
  assert (Hn := V_scale n n' V HV (- (1)) _ _ Hf).
  apply (rel_bind V).
  { destruct b; [|exact Hn]. apply (rel_bind V); [rewrite <- ER; destruct (sm_rescale m); assumption|]. intros g g' Hg. apply (rel_vadd n n' V HV); assumption. }
  intros d d' Hd. rewrite <- T, <- E1, <- E2. destruct (if sm_tuple m h then _ else _) as [l|]; [|reflexivity]. cbn [bind].
  rewrite (rel_dot n n' V HV w w' d d' HVW Hd). destruct (np_dot w' d') as [q|]; [|reflexivity]. cbn. auto.
Qed.
Lemma rel_fcs S S' w w' b : Forall2 R S S' -> V w w' ->
  rel_res (each same_constraint S S') (mapM (fun p => find_constraint m (fst p) (snd p) w None b) S) (mapM (fun p => find_constraint m' (fst p) (snd p) w' None b) S').
Proof.
  intros F HVW. induction F as [|p p' S S' H _ IH]; cbn [mapM]; [constructor|].
  apply (rel_bind (same_constraint p p')); [apply rel_fc; assumption|]. intros c c' Hc. apply (rel_bind (each same_constraint S S')); [exact IH|].
  intros cs cs' Hcs. cbn. constructor; assumption.
Qed.
Lemma same_slacks S S' cs cs' : each same_constraint S S' cs cs' -> map (fun c => snd (fst c)) cs = map (fun c => snd (fst c)) cs'.
Proof. induction 1 as [|p p' [[[y d] s] l] [[[y' d'] s'] l'] S S' cs cs' (_ & _ & H & _) _ IH]; [reflexivity|]. cbn. cbn in H. congruence. Qed.
Lemma sim_primal S S' w w' C v : Forall2 R S S' -> V w w' ->
  objective_primal m w (map fst S) (map snd S) C v = objective_primal m' w' (map fst S') (map snd S') C v.
Proof.
  intros F HVW. unfold objective_primal. rewrite !combine_pairs. apply rel_eq.
  apply (rel_bind (each same_constraint S S')); [apply rel_fcs; assumption|]. intros cs cs' Hcs.
  rewrite (same_slacks S S' cs cs' Hcs), (V_norm n n' V HV w w' HVW). destruct (each_length _ _ _ _ _ Hcs) as (L1 & L2 & L3).
  replace (length cs') with (length cs) by lia. apply rel_refl.
Qed.
Lemma sim_full p p' h h' : R p p' -> LL p p' h h' -> sm_full_loss m (snd p) h = sm_full_loss m' (snd p') h'.
Proof. intros (_ & HY & _) Hh. destruct (HY h h' Hh) as (_ & _ & T & E1 & E2). unfold sm_full_loss. rewrite T, E1, E2. reflexivity. Qed.

(** ** perceptron *)
Definition same_pc (st st' : pc_state) : Prop :=
  V (pc_w st) (pc_w st') /\ V (pc_bar st) (pc_bar st') /\ pc_obs st = pc_obs st' /\ pc_losses st = pc_losses st'.
Definition same_lw (q q' : Qc * list Qc) : Prop := fst q = fst q' /\ V (snd q) (snd q').
Lemma sim_pc_update p p' h h' lr w w' : R p p' -> LL p p' h h' -> V w w' -> rel_res same_lw (pc_update m lr p h w) (pc_update m' lr p' h' w').
Proof.
  intros (HT & HY & _) Hh HVW. destruct (HY h h' Hh) as (J1 & _ & _ & E1 & _), (HY _ _ HT) as (K1 & _). unfold pc_update. rewrite <- E1.
  destruct (sm_loss m (snd p) h) as [l|]; [|reflexivity]. cbn [bind]. destruct (Qceqb l 0); [split; [reflexivity|exact HVW]|].
  apply (rel_bind V); [exact K1|]. intros f f' Hf. apply (rel_bind V); [exact J1|]. intros g g' Hg.
  apply (rel_bind V); [apply (rel_vsub n n' V HV); assumption|]. intros d d' Hd. apply (rel_bind V); [apply (rel_vadd n n' V HV); [assumption|apply (V_scale n n' V HV); assumption]|].
  intros v v' Hv. split; [reflexivity|exact Hv].
Qed.
Lemma sim_observe on st st' : same_pc st st' -> same_pc (pc_observe on st) (pc_observe on st').
Proof.
  intros (H1 & H2 & H3 & H4). unfold pc_observe. destruct on; [|repeat split; assumption]. rewrite H3. repeat split; cbn; auto.
  apply (V_add n n' V HV); apply (V_scale n n' V HV); assumption.
Qed.
Definition same_run (q q' : pc_state * option exn) : Prop := same_pc (fst q) (fst q') /\ snd q = snd q'.
Lemma sim_online lr on S S' : Forall2 R S S' -> forall st st', same_pc st st' -> same_run (pc_online m lr on S st) (pc_online m' lr on S' st').
Proof.
  induction 1 as [|p p' S S' H _ IH]; intros st st' Hst; [split; [exact Hst|reflexivity]|]. cbn [pc_online]. assert (HW := proj1 Hst).
  assert (Q : rel_res same_lw (let! yh := sm_inference m (fst p) (pc_w st) in pc_update m lr p yh (pc_w st)) (let! yh := sm_inference m' (fst p') (pc_w st') in pc_update m' lr p' yh (pc_w st'))).
  { apply (rel_bind (LL p p')); [exact (proj1 (proj2 (proj2 H) _ _ HW))|]. intros h h' Hh. apply sim_pc_update; assumption. }
  destruct (let! yh := sm_inference m (fst p) (pc_w st) in _) as [[l w]|e], (let! yh := sm_inference m' (fst p') (pc_w st') in _) as [[l' w']|e']; cbn in Q; try contradiction.
  - destruct Q as [E Hw]. cbn in E, Hw. subst l'. apply IH. apply sim_observe. destruct Hst as (_ & H2 & H3 & H4). repeat split; cbn; auto. congruence.
  - subst e'. split; [exact Hst|reflexivity].
Qed.
Lemma sim_updates lr S S' Yh Yh' : each LL S S' Yh Yh' -> Forall2 R S S' -> forall st st', same_pc st st' ->
  same_run (pc_updates m lr (combine S Yh) st) (pc_updates m' lr (combine S' Yh') st').
Proof.
  induction 1 as [|p p' h h' S S' l l' Hh _ IH]; intros F st st' Hst; [split; [exact Hst|reflexivity]|]. inversion F as [|? ? ? ? H F']; subst. cbn [combine pc_updates].
  assert (Q := sim_pc_update p p' h h' lr _ _ H Hh (proj1 Hst)).
  destruct (pc_update m lr p h (pc_w st)) as [[q w]|e], (pc_update m' lr p' h' (pc_w st')) as [[q' w']|e']; cbn in Q; try contradiction.
  - destruct Q as [E Hw]. cbn in E, Hw. subst q'. apply IH; [exact F'|]. destruct Hst as (_ & H2 & H3 & H4). repeat split; cbn; auto. congruence.
  - subst e'. split; [exact Hst|reflexivity].
Qed.
Lemma sim_infs S S' w w' : Forall2 R S S' -> V w w' -> rel_res (each LL S S') (mapM (fun p => sm_inference m (fst p) w) S) (mapM (fun p => sm_inference m' (fst p) w') S').
Proof.
  intros F HVW. induction F as [|p p' S S' H _ IH]; cbn [mapM]; [constructor|]. apply (rel_bind (LL p p')); [exact (proj1 (proj2 (proj2 H) _ _ HVW))|].
  intros h h' Hh. apply (rel_bind (each LL S S')); [exact IH|]. intros hs hs' Hhs. cbn. constructor; assumption.
Qed.
Lemma sim_batch_epoch lr on S S' st st' : Forall2 R S S' -> same_pc st st' -> same_run (pc_batch_epoch m lr on S st) (pc_batch_epoch m' lr on S' st').
Proof.
  intros F Hst. unfold pc_batch_epoch. assert (Q := sim_infs S S' _ _ F (proj1 Hst)).
  destruct (mapM _ S) as [Yh|e], (mapM _ S') as [Yh'|e']; cbn in Q; try contradiction; [|subst e'; split; [exact Hst|reflexivity]].
  destruct (sim_updates lr S S' Yh Yh' Q F st st' Hst) as [U1 U2]. cbv zeta. rewrite <- U2. destruct (snd (pc_updates m lr (combine S Yh) st)) eqn:E.
  - split; [exact U1|]. congruence.
  - split; [|reflexivity]. apply sim_observe. exact U1.
Qed.
Lemma sim_pc_loop prm S S' ml k : Forall2 R S S' -> forall it st st' curve, same_pc st st' ->
  let q := pc_loop prm m S ml k it st curve in let q' := pc_loop prm m' S' ml k it st' curve in
  same_pc (fst (fst q)) (fst (fst q')) /\ snd (fst q) = snd (fst q') /\ snd q = snd q'.
Proof.
  intro F. induction k as [|k IH]; intros it st st' curve Hst; cbv zeta; [cbn; auto|]. cbn [pc_loop].
  assert (HB : same_pc (pc_begin (pc_avg prm) st) (pc_begin (pc_avg prm) st')).
  { destruct Hst as (H1 & H2 & H3 & H4). unfold pc_begin. rewrite H3. destruct (pc_avg prm) as [| |z]; [repeat split; assumption|repeat split; assumption|].
    destruct (z =? -1)%Z; repeat split; try assumption. cbn. destruct (V_len n n' V HV _ _ H2) as [-> ->]. apply (V_zero n n' V HV). }
  destruct (pc_rate prm it) as [lr|e]; [|cbn; auto].
  assert (Q : same_run (if pc_batch prm then pc_batch_epoch m lr (pc_on (pc_avg prm) it) S (pc_begin (pc_avg prm) st) else pc_online m lr (pc_on (pc_avg prm) it) S (pc_begin (pc_avg prm) st))
     (if pc_batch prm then pc_batch_epoch m' lr (pc_on (pc_avg prm) it) S' (pc_begin (pc_avg prm) st') else pc_online m' lr (pc_on (pc_avg prm) it) S' (pc_begin (pc_avg prm) st'))).
  { destruct (pc_batch prm); [apply sim_batch_epoch|apply sim_online]; assumption. }
  destruct (if pc_batch prm then pc_batch_epoch m lr _ _ _ else _) as [s o], (if pc_batch prm then pc_batch_epoch m' lr _ _ _ else _) as [s' o']. destruct Q as [Q1 Q2]. cbn [fst snd] in *. subst o'.
  destruct o as [e|]; [cbn; auto|]. rewrite <- (proj2 (proj2 (proj2 Q1))).
  destruct (match (if Qceqb ml 0 then None else Some (pc_losses s / ml)) with Some v => Qceqb v 0 | None => false end); [cbn; auto|apply IH; exact Q1].
Qed.
Lemma sim_pc_fit prm mloss mloss' old S S' : Forall2 R S S' -> Forall2 (fun p p' => mloss (snd p) = mloss' (snd p')) S S' ->
  let q := pc_fit prm m mloss old S in let q' := pc_fit prm m' mloss' old S' in
  V (pl_w (fst q)) (pl_w (fst q')) /\ pl_curve (fst q) = pl_curve (fst q') /\ pl_avg (fst q) = pl_avg (fst q') /\ snd q = snd q'.
Proof.
  intros F FM. cbv zeta. unfold pc_fit. destruct HS as (-> & -> & _). assert (Z := V_zero n n' V HV).
  destruct (match pc_avg prm with FromEpoch k => (k <? -1)%Z | _ => false end); [cbn; auto|].
  rewrite (mapM_Forall2_eq _ (fun p => mloss (snd p)) (fun p => mloss' (snd p)) S S' (fun p p' H => H) FM).
  destruct (mapM _ S') as [mls|e]; [|cbn; auto].
  match goal with |- context [pc_loop ?P m S ?ml ?k 0 ?st []] => assert (Q := sim_pc_loop P S S' ml k F 0%nat st (PCState (vzero n') (vzero n') 0 0) []) end.
  cbv zeta in Q. match type of Q with ?A -> _ => assert (HA : A) by (repeat split; assumption) end. specialize (Q HA).
  destruct (pc_loop _ m S _ _ _ _ _) as [[s c] e], (pc_loop _ m' S' _ _ _ _ _) as [[s' c'] e']. destruct Q as ((Q1 & Q2 & _) & Q5 & Q6). cbn [fst snd] in *. subst c' e'.
  cbn. split; [|auto]. destruct (pc_averaging _); assumption.
Qed.
End Samples.

(** ** the default batch methods *)
Lemma base_similar m m' : similar_sizes n n' m m' -> similar_models V L n n' (base_bmodel m) (base_bmodel m').
Proof.
  intro HS. split; [exact HS|]. intros B B' F _. cbn [bm_s base_bmodel] in F. split.
  - intros w w' HVW. cbn [bm_laug base_bmodel]. rewrite !combine_pairs. induction F as [|p p' S S' H _ IH]; cbn [mapM]; [constructor|].
    apply (rel_bind (LL p p')); [exact (proj2 (proj2 (proj2 H) _ _ HVW))|]. intros h h' Hh. apply (rel_bind (each LL S S')); [exact IH|]. intros hs hs' Hhs. cbn. constructor; assumption.
  - intros Yh Yh' HY. split; [|split].
    + cbn [bm_loss base_bmodel]. revert F. induction HY as [|p p' h h' S S' l l' Hh _ IH]; intro F; [reflexivity|]. inversion F as [|? ? ? ? H F']; subst.
      cbn [map combine mapM fst snd]. rewrite (sim_full m m' p p' h h' H Hh), (IH F'). reflexivity.
    + cbn [bm_joint base_bmodel]. destruct HS as (-> & -> & <-). destruct (sm_rescale m); [reflexivity|]. apply (rel_sum_features n n' V HV); [apply (V_zero n n' V HV)|].
      revert F. induction HY as [|p p' h h' S S' l l' Hh _ IH]; intro F; [constructor|]. inversion F as [|? ? ? ? H F']; subst. cbn [map combine fst snd]. constructor; [|apply IH; exact F'].
      exact (proj1 (proj1 (proj2 H) h h' Hh)).
    + cbn [bm_joint base_bmodel]. destruct HS as (-> & -> & <-). destruct (sm_rescale m); apply (rel_sum_features n n' V HV); try apply (V_zero n n' V HV).
      * revert F. induction HY as [|p p' h h' S S' l l' Hh _ IH]; intro F; [constructor|]. inversion F as [|? ? ? ? H F']; subst. cbn [map combine fst snd]. constructor; [|apply IH; exact F'].
        exact (proj1 (proj2 (proj1 (proj2 H) h h' Hh))).
      * revert F. induction HY as [|p p' h h' S S' l l' Hh _ IH]; intro F; [constructor|]. inversion F as [|? ? ? ? H F']; subst. cbn [map combine fst snd]. constructor; [|apply IH; exact F'].
        exact (proj1 (proj1 (proj2 H) h h' Hh)).
Qed.

Section Batches.
Variables (bm : bmodel X Y) (bm' : bmodel X' Y').
Hypothesis HB : similar_models V L n n' bm bm'.
Notation m := (bm_s bm).
Notation m' := (bm_s bm').
Notation R := (similar V L m m').
Let HS : similar_sizes n n' m m' := proj1 HB.
Lemma truths S S' : Forall2 R S S' -> each LL S S' (map snd S) (map snd S').
Proof. induction 1 as [|p p' S S' H _ IH]; cbn; constructor; [exact (proj1 H)|exact IH]. Qed.
Lemma sim_laug B B' w w' : Forall2 R B B' -> B <> [] -> V w w' ->
  rel_res (each LL B B') (bm_laug bm (map fst B) (map snd B) w) (bm_laug bm' (map fst B') (map snd B') w').
Proof. intros F N. exact (proj1 (proj2 HB B B' F N) w w'). Qed.
Lemma sim_loss B B' Yh Yh' : Forall2 R B B' -> B <> [] -> each LL B B' Yh Yh' -> bm_loss bm (map snd B) Yh = bm_loss bm' (map snd B') Yh'.
Proof. intros F N E. exact (proj1 (proj2 (proj2 HB B B' F N) Yh Yh' E)). Qed.
Lemma sim_joint B B' Yh Yh' : Forall2 R B B' -> B <> [] -> each LL B B' Yh Yh' ->
  rel_res V (bm_joint bm (map fst B) Yh None) (bm_joint bm' (map fst B') Yh' None).
Proof. intros F N E. exact (proj1 (proj2 (proj2 (proj2 HB B B' F N) Yh Yh' E))). Qed.
Lemma sim_joint_true B B' Yh Yh' : Forall2 R B B' -> B <> [] -> each LL B B' Yh Yh' ->
  rel_res V (bm_joint bm (map fst B) Yh (Some (map snd B))) (bm_joint bm' (map fst B') Yh' (Some (map snd B'))).
Proof. intros F N E. exact (proj2 (proj2 (proj2 (proj2 HB B B' F N) Yh Yh' E))). Qed.

(** ** subgradient *)
Definition same_sg (st st' : sg_state) : Prop :=
  V (sg_w st) (sg_w st') /\ V (sg_self st) (sg_self st') /\ V (sg_grad st) (sg_grad st') /\ sg_t st = sg_t st'.
Lemma sim_solve prm k lr d d' st st' : V d d' -> same_sg st st' -> rel_res same_sg (solve_subgradient prm k lr d st) (solve_subgradient prm k lr d' st').
Proof.
  intros Hd (H1 & H2 & H3 & H4). unfold solve_subgradient. destruct (ensure _ _); [|reflexivity]. cbn [bind].
  apply (rel_bind V); [apply (rel_vsub n n' V HV); [exact Hd|apply (V_scale n n' V HV); exact H1]|]. intros g g' Hg.
  apply (rel_bind V); [apply (rel_vadd n n' V HV); apply (V_scale n n' V HV); assumption|]. intros o o' Ho. rewrite H4.
  destruct (sg_rate prm lr (sg_t st')) as [q|]; [|reflexivity]. cbn [bind].
  apply (rel_bind V); [apply (rel_vadd n n' V HV); [exact H1|apply (V_scale n n' V HV); exact Ho]|]. intros v v' Hv. repeat split; cbn; auto.
  unfold sg_expose. destruct (sg_avg prm); [exact Hv| |]; apply (V_add n n' V HV); apply (V_scale n n' V HV); assumption.
Qed.
Definition same_sgn {T} (q q' : sg_state * T) : Prop := same_sg (fst q) (fst q') /\ snd q = snd q'.
Lemma sim_sg_online prm k lr S S' : Forall2 R S S' -> forall st st' pos, same_sg st st' -> rel_res same_sgn (sg_online prm m k lr S st pos) (sg_online prm m' k lr S' st' pos).
Proof.
  induction 1 as [|p p' S S' H _ IH]; intros st st' pos Hst; [split; [exact Hst|reflexivity]|]. cbn [sg_online].
  apply (rel_bind same_sgn).
  - unfold sg_online_step. apply (rel_bind (same_constraint p p')); [apply rel_fc; [exact HS|exact H|exact (proj1 Hst)]|].
    intros [[[h d] s] l] [[[h' d'] s'] l'] (_ & Hd & Hs & _). apply (rel_bind same_sg); [apply sim_solve; assumption|]. intros t t' Ht. split; [exact Ht|]. cbn. congruence.
  - intros [t b] [t' b'] [Ht E]. cbn in Ht, E |- *. subst b'. apply IH. exact Ht.
Qed.
Lemma sim_sg_mini_step prm k lr B B' st st' : Forall2 R B B' -> B <> [] -> same_sg st st' -> rel_res same_sg (sg_mini_step prm bm k lr B st) (sg_mini_step prm bm' k lr B' st').
Proof.
  intros F N Hst. unfold sg_mini_step. cbv zeta. apply (rel_bind (each LL B B')); [apply sim_laug; [exact F|exact N|exact (proj1 Hst)]|]. intros Yh Yh' HY.
  apply (rel_bind V); [apply sim_joint; [exact F|exact N|apply truths; exact F]|]. intros f f' Hf. apply (rel_bind V); [apply sim_joint; [exact F|exact N|exact HY]|]. intros g g' Hg.
  apply (rel_bind V); [apply (rel_vsub n n' V HV); assumption|]. intros d d' Hd. rewrite (sim_loss B B' Yh Yh' F N HY). destruct (bm_loss bm' _ _); [|reflexivity]. cbn [bind].
  rewrite (rel_dot n n' V HV _ _ _ _ (proj1 Hst) Hd), (Forall2_length_eq _ _ _ F). destruct (np_dot _ _); [|reflexivity]. cbn [bind]. destruct (ensure _ _); [|reflexivity]. cbn [bind].
  apply sim_solve; [apply (V_scale n n' V HV); exact Hd|exact Hst].
Qed.
(** an empty batch gives no gradient in either model *)
Definition batches_ok (Bs : list (list (X * Y))) (Bs' : list (list (X' * Y'))) : Prop := Forall2 (fun B B' => Forall2 R B B' /\ B <> []) Bs Bs'.
Lemma sim_sg_mini prm k lr b Bs Bs' : batches_ok Bs Bs' -> forall st st' pos, same_sg st st' -> rel_res same_sgn (sg_mini prm bm k lr b Bs st pos) (sg_mini prm bm' k lr b Bs' st' pos).
Proof.
  induction 1 as [|B B' Bs Bs' [H N] _ IH]; intros st st' pos Hst; cbn [sg_mini]; [split; [exact Hst|reflexivity]|].
  apply (rel_bind same_sg); [apply sim_sg_mini_step; assumption|]. intros t t' Ht. apply IH. exact Ht.
Qed.
Lemma even_slices_nonempty total q packs : forall start rest lo hi, In (lo, hi) (even_slices_from start total q rest packs) ->
  (start + packs * q + Nat.min rest packs <= total)%nat -> (lo < hi <= total)%nat.
Proof.
  induction packs as [|packs IH]; intros start rest lo hi HI HT; cbn [even_slices_from] in HI; [contradiction|].
  destruct (0 <? rest)%nat eqn:E1.
  - apply Nat.ltb_lt in E1. destruct (0 <? q + 1)%nat eqn:E2; [|apply Nat.ltb_ge in E2; lia]. destruct HI as [HI|HI].
    + injection HI as <- <-. nia.
    + apply IH in HI; [exact HI|]. nia.
  - apply Nat.ltb_ge in E1. destruct (0 <? q + 0)%nat eqn:E2; [apply Nat.ltb_lt in E2|apply Nat.ltb_ge in E2].
    + destruct HI as [HI|HI]; [injection HI as <- <-; nia|apply IH in HI; [exact HI|nia]].
    + apply IH in HI; [exact HI|nia].
Qed.
Lemma gen_even_nonempty total packs sl lo hi : gen_even_slices total packs = Ok sl -> In (lo, hi) sl -> (lo < hi <= total)%nat.
Proof.
  unfold gen_even_slices. destruct (packs <? 1)%nat eqn:E; [discriminate|]. apply Nat.ltb_ge in E. intros Q HI. assert (ES : sl = even_slices_from 0 total (total / packs) (total mod packs) packs) by congruence. subst sl.
  apply even_slices_nonempty in HI; [exact HI|]. assert (D := Nat.div_mod_eq total packs). assert (M := Nat.mod_upper_bound total packs). nia.
Qed.
Lemma slices_sim (sl : list (nat * nat)) S S' : Forall2 R S S' -> (forall lo hi, In (lo, hi) sl -> (lo < hi <= length S)%nat) ->
  batches_ok (map (fun s => slice (fst s) (snd s) S) sl) (map (fun s => slice (fst s) (snd s) S') sl).
Proof.
  intros H N. induction sl as [|[lo hi] sl IH]; cbn [map]; constructor; [|apply IH; intros; apply N; cbn; auto]. split; [apply Forall2_slice; exact H|].
  specialize (N lo hi (or_introl eq_refl)). cbn [fst snd]. intro E. apply (f_equal (@length _)) in E. rewrite slice_length in E by lia. cbn in E. lia.
Qed.
Lemma sim_sequential prm lr S S' st st' : Forall2 R S S' -> S <> [] -> same_sg st st' -> rel_res same_sgn (sg_sequential prm bm lr S st) (sg_sequential prm bm' lr S' st').
Proof.
  intros F N Hst. unfold sg_sequential. rewrite <- (Forall2_length_eq _ _ _ F). destruct (sg_batch prm) as [b|]; [|apply sim_sg_online; assumption].
  destruct (b =? 1)%Z; [apply sim_sg_online; assumption|]. destruct (b =? -1)%Z; cbn [bind].
  - apply sim_sg_mini; [|exact Hst]. constructor; [split; assumption|constructor].
  - unfold sg_slices. destruct (b =? 0)%Z; [reflexivity|]. destruct (b <? 0)%Z; [reflexivity|]. destruct (gen_even_slices _ _) as [sl|] eqn:E; [|reflexivity]. cbn [bind].
    apply sim_sg_mini; [|exact Hst]. apply slices_sim; [exact F|]. intros lo hi HI. exact (gen_even_nonempty _ _ _ _ _ E HI).
Qed.
Lemma sim_sg_gather S S' cs cs' : each same_constraint S S' cs cs' -> forall d d' pos, V d d' ->
  rel_res (fun q q' => V (fst q) (fst q') /\ snd q = snd q') (sg_gather cs d pos) (sg_gather cs' d' pos).
Proof.
  induction 1 as [|p p' [[[y e] s] l] [[[y' e'] s'] l'] S S' cs cs' (_ & He & Hs & _) _ IH]; intros d d' pos Hd; cbn [sg_gather]; [split; [exact Hd|reflexivity]|].
  rewrite <- Hs. destruct (Qcltb 0 s); [|apply IH; exact Hd]. apply (rel_bind V); [apply (rel_vadd n n' V HV); assumption|]. intros a a' Ha. apply IH. exact Ha.
Qed.
Lemma sim_sg_par prm k lr Bs Bs' : Forall2 (Forall2 R) Bs Bs' -> forall st st' pos, same_sg st st' -> rel_res same_sgn (sg_par prm m k lr Bs st pos) (sg_par prm m' k lr Bs' st' pos).
Proof.
  induction 1 as [|B B' Bs Bs' H _ IH]; intros st st' pos Hst; [split; [exact Hst|reflexivity]|]. cbn [sg_par].
  apply (rel_bind same_sgn).
  - unfold sg_par_step. apply (rel_bind (each same_constraint B B')); [apply rel_fcs; [exact HS|exact H|exact (proj1 Hst)]|]. intros cs cs' Hcs.
    apply (rel_bind (fun q q' => V (fst q) (fst q') /\ snd q = snd q')). { destruct HS as (-> & -> & _). apply (sim_sg_gather B B'); [exact Hcs|apply (V_zero n n' V HV)]. }
    intros [d z] [d' z'] [Hd Hz]. cbn in Hd, Hz. cbn [fst snd]. subst z'. apply (rel_bind same_sg); [apply sim_solve; assumption|]. intros t t' Ht. split; [exact Ht|reflexivity].
  - intros [t z] [t' z'] [Ht E]. cbn in Ht, E |- *. subst z'. apply IH. exact Ht.
Qed.
Lemma sim_epoch prm lr S S' st st' : Forall2 R S S' -> S <> [] -> same_sg st st' -> rel_res same_sgn (sg_epoch prm bm lr S st) (sg_epoch prm bm' lr S' st').
Proof.
  intros F N Hst. unfold sg_epoch. destruct (sg_jobs prm =? 1)%Z; [apply sim_sequential; assumption|]. unfold sg_parallel.
  destruct (match sg_batch prm with None => true | Some _ => false end); [|reflexivity]. cbn [ensure bind]. rewrite (Forall2_length_eq _ _ _ F).
  destruct (sg_slices _ _) as [sl|]; [|reflexivity]. cbn [bind]. apply sim_sg_par; [|exact Hst].
  clear - F. induction sl as [|s sl IH]; cbn [map]; constructor; auto using Forall2_slice.
Qed.
Lemma sim_sg_objective prm S S' w w' : Forall2 R S S' -> V w w' -> sg_objective prm bm S w = sg_objective prm bm' S' w'.
Proof. intros F HVW. apply sim_primal; assumption. Qed.
Lemma sim_sg_loop prm lr shuf shuf' k :
  (forall it A A', Forall2 R A A' -> Forall2 R (shuf it A) (shuf' it A') /\ (A <> [] -> shuf it A <> [])) ->
  forall it S S' st st' curve, Forall2 R S S' -> S <> [] -> same_sg st st' ->
  rel_res (fun q q' => same_sg (fst (fst q)) (fst (fst q')) /\ snd (fst q) = snd (fst q') /\ Forall2 R (snd q) (snd q'))
    (sg_loop prm bm lr shuf k it S st curve) (sg_loop prm bm' lr shuf' k it S' st' curve).
Proof.
  intro HSh. induction k as [|k IH]; intros it S S' st st' curve F N Hst; cbn [sg_loop]; [cbn; auto|].
  destruct (HSh it S S' F) as [F' N']. specialize (N' N).
  apply (rel_bind same_sgn); [apply sim_epoch; assumption|]. intros [s z] [s' z'] [Hs E]. cbn in Hs, E. cbn [fst snd]. subst z'.
  destruct ((z =? 0)%Z && sg_break prm)%bool; [cbn; auto|]. rewrite (sim_sg_objective prm _ _ _ _ F' (proj1 (proj2 Hs))).
  destruct (sg_objective prm bm' _ _) as [o|]; [|reflexivity]. cbn [bind]. apply IH; assumption.
Qed.
Definition same_sgl (A A' : sg_learner) : Prop :=
  sl_t A = sl_t A' /\ match sl_fitted A, sl_fitted A' with
                      | Some (w, lr, c), Some (w', lr', c') => V w w' /\ lr = lr' /\ c = c'
                      | None, None => True
                      | _, _ => False
                      end.
Lemma sim_sg_fit prm shuf shuf' warm S S' A A' : Forall2 R S S' -> S <> [] ->
  (forall it B B', Forall2 R B B' -> Forall2 R (shuf it B) (shuf' it B') /\ (B <> [] -> shuf it B <> [])) -> same_sgl A A' ->
  rel_res same_sgl (sg_fit prm bm shuf warm S A) (sg_fit prm bm' shuf' warm S' A').
Proof.
  intros F N HSh [HT HF]. unfold sg_fit. destruct HS as (-> & -> & _). assert (Z := V_zero n n' V HV). rewrite (Forall2_length_eq _ _ _ F).
  assert (HW : V (match sl_fitted A with Some (w, _, _) => w | None => vzero n end) (match sl_fitted A' with Some (w, _, _) => w | None => vzero n' end)).
  { destruct (sl_fitted A) as [[[w lr] c]|], (sl_fitted A') as [[[w' lr'] c']|]; try contradiction; [exact (proj1 HF)|exact Z]. }
  apply (rel_bind eq).
  { destruct warm; [|apply rel_refl]. destruct (sl_fitted A) as [[[w lr] c]|], (sl_fitted A') as [[[w' lr'] c']|]; try contradiction; [|reflexivity]. destruct HF as (_ & -> & ->). reflexivity. }
  intros lc ? <-. match goal with |- rel_res _ (bind (sg_loop _ _ _ _ _ _ _ ?st _) _) (bind (sg_loop _ _ _ _ _ _ _ ?st' _) _) => assert (Hst : same_sg st st') by (repeat split; assumption) end.
  apply (rel_bind _ _ _ _ _ _ (sim_sg_loop prm (fst lc) shuf shuf' _ HSh _ S S' _ _ (snd lc) F N Hst)). intros [[s c] T] [[s' c'] T'] (Hs & E & HTT). cbn [fst snd] in Hs, E, HTT. subst c'.
  rewrite (sim_sg_objective prm T T' _ _ HTT (proj1 (proj2 Hs))). destruct (sg_objective prm bm' _ _) as [o|]; [|reflexivity]. cbn. destruct Hs as (_ & H2 & _ & H4). split; [exact H4|]. cbn. auto.
Qed.

(** ** Frank-Wolfe *)
Definition same_fw (st st' : fw_state) : Prop :=
  V (fs_w st) (fs_w st') /\ Forall2 V (fs_wmat st) (fs_wmat st') /\ fs_lmat st = fs_lmat st' /\ fs_l st = fs_l st' /\ fs_k st = fs_k st' /\
  V (fs_self_w st) (fs_self_w st') /\ fs_self_l st = fs_self_l st'.
Lemma Forall2_set_at {A A'} (Q : A -> A' -> Prop) i a a' l l' : Q a a' -> Forall2 Q l l' -> Forall2 Q (set_at i a l) (set_at i a' l').
Proof. intros H F. revert i. induction F as [|b b' l l' HQ F IH]; intros [|i]; cbn; constructor; auto. Qed.
Lemma sim_fw_step prm S S' i st st' : Forall2 R S S' -> same_fw st st' ->
  rel_res same_fw (fw_step prm m (map fst S) (map snd S) i st) (fw_step prm m' (map fst S') (map snd S') i st').
Proof.
  intros F (H1 & H2 & H3 & H4 & H5 & H6 & H7). unfold fw_step. rewrite !index_map, !map_length, (Forall2_length_eq _ _ _ F).
  assert (QI := rel_index R S S' i F). destruct (index S i) as [p|], (index S' i) as [p'|]; cbn in QI; try contradiction; [|subst; reflexivity]. cbn [bind].
  apply (rel_bind (same_constraint p p')); [apply rel_fc; assumption|]. intros [[[h d] s] l] [[[h' d'] s'] l'] (_ & Hd & Hs & Hl). subst l' s'. cbv zeta.
  assert (Hws := V_scale n n' V HV (fw_C prm) _ _ Hd). apply (rel_bind V); [apply rel_index; exact H2|]. intros wi wi' Hwi. rewrite H3, H4, H5, H7.
  destruct (index (fs_lmat st') i) as [li|]; [|reflexivity]. cbn [bind]. apply (rel_bind eq).
  { destruct (fw_line prm); [|apply rel_refl]. apply (rel_bind V); [apply (rel_vsub n n' V HV); assumption|]. intros wd wd' Hwd.
    rewrite (rel_dot n n' V HV _ _ _ _ Hwd H1), (V_norm n n' V HV _ _ Hwd). apply rel_refl. }
  intros g ? <-. apply (rel_bind V); [apply (rel_vsub n n' V HV); assumption|]. intros w1 w1' Hw1.
  destruct (V_lens n n' V HV _ _ _ _ Hwi Hws) as [-> ->]. cbn [ensure bind]. assert (Hm := V_vmix n n' V HV g _ _ _ _ Hwi Hws).
  apply (rel_bind V); [apply (rel_vadd n n' V HV); assumption|]. intros w2 w2' Hw2. repeat split; cbn; auto.
  - apply Forall2_set_at; assumption.
  - destruct (fw_avg prm); [apply (V_vmix n n' V HV)|]; assumption.
Qed.
Lemma sim_fw_pass prm S S' idx : Forall2 R S S' -> forall st st', same_fw st st' ->
  rel_res same_fw (fw_pass prm m (map fst S) (map snd S) idx st) (fw_pass prm m' (map fst S') (map snd S') idx st').
Proof.
  intro F. induction idx as [|i idx IH]; intros st st' Hst; cbn [fw_pass]; [exact Hst|]. apply (rel_bind same_fw); [apply sim_fw_step; assumption|]. intros t t' Ht. apply IH. exact Ht.
Qed.
Lemma sim_gap C S S' w w' l : Forall2 R S S' -> S <> [] -> V w w' ->
  calc_dual_gap C bm (map fst S) (map snd S) w l = calc_dual_gap C bm' (map fst S') (map snd S') w' l.
Proof.
  intros F N HVW. apply rel_eq. unfold calc_dual_gap. apply (rel_bind V); [apply sim_joint_true; [exact F|exact N|apply truths; exact F]|]. intros gt gt' Hgt.
  apply (rel_bind (each LL S S')); [apply sim_laug; assumption|]. intros Yh Yh' HY. apply (rel_bind V); [apply sim_joint; assumption|]. intros f f' Hf.
  apply (rel_bind V); [apply (rel_vsub n n' V HV); assumption|]. intros d d' Hd. rewrite (sim_loss S S' Yh Yh' F N HY). destruct (bm_loss bm' _ _); [|reflexivity]. cbn [bind]. cbv zeta.
  apply (rel_bind V); [apply (rel_vsub n n' V HV); [assumption|apply (V_scale n n' V HV); assumption]|]. intros wd wd' Hwd.
  rewrite (rel_dot n n' V HV _ _ _ _ Hwd HVW), (V_norm n n' V HV _ _ HVW), !map_length, (Forall2_length_eq _ _ _ F). apply rel_refl.
Qed.
Definition same_bc (q q' : fw_state * list Qc * list Qc) : Prop := same_fw (fst (fst q)) (fst (fst q')) /\ snd (fst q) = snd (fst q') /\ snd q = snd q'.
Lemma sim_bc_loop prm S S' sched k : Forall2 R S S' -> S <> [] -> forall it st st' gap primal curve, same_fw st st' ->
  rel_res same_bc (fw_bc_loop prm bm (map fst S) (map snd S) sched k it st gap primal curve) (fw_bc_loop prm bm' (map fst S') (map snd S') sched k it st' gap primal curve).
Proof.
  intros F N. induction k as [|k IH]; intros it st st' gap primal curve Hst; cbn [fw_bc_loop]; [split; [exact Hst|split; reflexivity]|].
  apply (rel_bind same_fw); [apply sim_fw_pass; assumption|]. intros t t' Ht. destruct Ht as (A1 & A2 & A3 & A4 & A5 & A6 & A7). rewrite (sim_gap (fw_C prm) S S' _ _ (fs_self_l t) F N A6), A7.
  match goal with |- rel_res _ (bind ?r _) _ => destruct r as [[[gp pr] cu]|] end; [|reflexivity]. cbn [bind]. destruct gp as [q|]; [|reflexivity].
  destruct (Qcltb q _); [|apply IH]; [split; [|split; reflexivity]|]; cbn [fst snd]; repeat split; assumption.
Qed.
Definition same_fb (st st' : fw_bstate) : Prop := V (fb_w st) (fb_w st') /\ fb_l st = fb_l st' /\ fb_primal st = fb_primal st' /\ fb_curve st = fb_curve st'.
Lemma sim_batch_step prm S S' gt gt' it st st' : Forall2 R S S' -> S <> [] -> V gt gt' -> same_fb st st' ->
  rel_res (fun q q' => same_fb (fst q) (fst q') /\ snd q = snd q') (fw_batch_step prm bm (map fst S) (map snd S) gt it st) (fw_batch_step prm bm' (map fst S') (map snd S') gt' it st').
Proof.
  intros F N Hgt (H1 & H2 & H3 & H4). unfold fw_batch_step. apply (rel_bind (each LL S S')); [apply sim_laug; assumption|]. intros Yh Yh' HY.
  apply (rel_bind V); [apply sim_joint; assumption|]. intros f f' Hf. apply (rel_bind V); [apply (rel_vsub n n' V HV); assumption|]. intros d d' Hd.
  rewrite (sim_loss S S' Yh Yh' F N HY). destruct (bm_loss bm' _ _); [|reflexivity]. cbn [bind]. destruct (ensure _ _); [|reflexivity]. cbn [bind]. cbv zeta.
  assert (Hws := V_scale n n' V HV (fw_C prm) _ _ Hd). apply (rel_bind V); [apply (rel_vsub n n' V HV); assumption|]. intros wd wd' Hwd. rewrite !map_length, (Forall2_length_eq _ _ _ F).
  destruct (ensure _ _); [|reflexivity]. cbn [bind]. unfold fw_dual. rewrite (rel_dot n n' V HV _ _ _ _ Hwd H1), (V_norm n n' V HV _ _ Hwd), (V_norm n n' V HV _ _ H1), H2, H3, H4.
  destruct (np_dot _ _); [|reflexivity]. cbn [bind]. split; [|reflexivity]. repeat split; cbn; auto. apply (V_vmix n n' V HV); assumption.
Qed.
Lemma sim_batch_loop prm S S' gt gt' k : Forall2 R S S' -> S <> [] -> V gt gt' -> forall it st st', same_fb st st' ->
  rel_res same_fb (fw_batch_loop prm bm (map fst S) (map snd S) gt k it st) (fw_batch_loop prm bm' (map fst S') (map snd S') gt' k it st').
Proof.
  intros F N Hgt. induction k as [|k IH]; intros it st st' Hst; cbn [fw_batch_loop]; [exact Hst|].
  apply (rel_bind _ _ _ _ _ _ (sim_batch_step prm S S' gt gt' it st st' F N Hgt Hst)). intros [s q] [s' q'] [Hs E]. cbn in Hs, E. cbn [fst snd]. subst q'.
  destruct (Qcltb q _); [exact Hs|apply IH; exact Hs].
Qed.
Definition same_fwr (q q' : list Qc * Qc * list Qc * list Qc) : Prop :=
  let '(w, l, pr, cu) := q in let '(w', l', pr', cu') := q' in V w w' /\ l = l' /\ pr = pr' /\ cu = cu'.
Lemma sim_fw_fit prm S S' sched old old' : Forall2 R S S' -> S <> [] ->
  match old, old' with Some (w, l), Some (w', l') => V w w' /\ l = l' | None, None => True | _, _ => False end ->
  rel_res same_fwr (fw_fit prm bm (map fst S) (map snd S) sched old) (fw_fit prm bm' (map fst S') (map snd S') sched old').
Proof.
  intros F N HO. unfold fw_fit. destruct HS as (E1 & E2 & _). rewrite E1, E2. assert (Z := V_zero n n' V HV).
  assert (Q : exists w w' l, (match old with Some o => o | None => (vzero n, 0) end) = (w, l) /\ (match old' with Some o => o | None => (vzero n', 0) end) = (w', l) /\ V w w').
  { destruct old as [[w l]|], old' as [[w' l']|]; try contradiction; [destruct HO as [HO ->]|]; do 3 eexists; repeat split; eassumption. }
  destruct Q as (w & w' & l & -> & -> & HVW). apply (rel_bind same_fwr).
  - destruct (fw_batch prm).
    + apply (rel_bind same_fb).
      * unfold frank_wolfe_batch. apply (rel_bind V); [apply sim_joint_true; [exact F|exact N|apply truths; exact F]|]. intros gt gt' Hgt. apply sim_batch_loop; try assumption. repeat split; assumption.
      * intros s s' (A1 & A2 & A3 & A4). cbn. auto.
    + apply (rel_bind same_bc).
      * unfold frank_wolfe_bc. apply sim_bc_loop; try assumption. unfold fw_bc_start. rewrite E1, E2, !map_length, (Forall2_length_eq _ _ _ F). repeat split; cbn; auto.
        clear - Z. induction (length S') as [|k IH]; cbn; constructor; auto.
      * intros [[s pr] cu] [[s' pr'] cu'] ((A1 & A2 & A3 & A4 & A5 & A6 & A7) & B2 & B3). cbn in B2, B3. cbn. auto.
  - intros [[[v k] pr] cu] [[[v' k'] pr'] cu'] (A1 & <- & <- & <-). rewrite (sim_primal m m' HS S S' v v' (fw_C prm) NSlack F A1).
    destruct (objective_primal m' _ _ _ _ _); [|reflexivity]. cbn [bind]. destruct (last_of cu); [|reflexivity]. cbn. auto.
Qed.
End Batches.
End Similar.
