(** Convergence of fit for every setting of n_jobs and batch_size. *)
From Coq Require Import ZArith Permutation.
From Verif Require Import Model.Subgradient Proofs.Arrays Proofs.LossProofs Proofs.CRFProofs Proofs.LearnerProofs Proofs.QPProofs
  Proofs.NSlackProofs5 Proofs.OneSlackProofs Proofs.OneSlackProofs2 Proofs.SubgradientProofs Proofs.SubgradientProofs2 Proofs.SubgradientProofs3 Proofs.SubgradientProofs4 Proofs.SubgradientProofs5
  Spec.SubgradientRateSpec Proofs.SubgradientRate Proofs.SubgradientRate2 Proofs.SubgradientRate3 Proofs.SubgradientRate4.

Definition epoch_ok {X Y} (T : task X Y) d prm (bm : bmodel X Y) n R m (f : list Qc -> Qc) (allowed : list (X * Y) -> Prop) : Prop :=
  forall S st, allowed S -> keeps d prm n R st -> exists st' pos Bs k, sg_epoch prm bm (sg_C prm * ofN n) S st = Ok (st', pos) /\
  walk T d prm n R k Bs st st' /\ Forall (fun B => steppable T d prm (bm_s bm) n R (k B) B) Bs /\ length Bs = m /\
  forall v, length v = d -> lsum (map (fun F => F v) (map (fun B => comp T (bm_s bm) (k B) B) Bs)) = ofN m * f v.

Lemma exact_incl {X Y} (m : smodel X Y) T d S S' : oracle_exact m T d S -> incl S' S -> oracle_exact m T d S'.
Proof. intros H HI p Hp. apply H, HI, Hp. Qed.
Lemma exact_is_ok {X Y} (m : smodel X Y) T d S : oracle_exact m T d S -> oracle_ok m T d S.
Proof.
  intros H p Hp. destruct (H p Hp) as [A B]. split; [exact A|]. intros w Hw. destruct (B w Hw) as [yh [E [L _]]]. eauto.
Qed.
Lemma concat_incl {A} (Bs : list (list A)) B : In B Bs -> incl B (concat Bs).
Proof. intros H x Hx. apply in_concat. eauto. Qed.
Lemma perm_incl {A} (S S' : list A) : Permutation S' S -> incl S' S.
Proof. intros H x Hx. eapply Permutation_in; eauto. Qed.

Lemma count_pos n b : (0 < n)%nat -> (0 < b)%nat -> (0 < batch_count n b)%nat.
Proof. intros Hn Hb. unfold batch_count. apply Nat.div_str_pos. lia. Qed.

Section modes.
Context {X Y : Type} (T : task X Y) (d : nat) (prm : sg_params) (bm : bmodel X Y) (S : list (X * Y)) (R2 R : Qc).
Notation n := (length S).
Notation K := (sg_C prm * ofN n).
Hypothesis HC : 0 < sg_C prm.
Hypothesis HM : sg_momentum prm = 0.
Hypothesis HD : sg_decay prm = 1%nat.
Hypothesis HT : 1 <= sg_t0 prm.
Hypothesis Hn : (0 < n)%nat.
Hypothesis HO : oracle_exact (bm_s bm) T d S.
Hypothesis HSp : Forall (spread T R2) S.
Hypothesis HR2 : 0 <= R2.

Lemma spread_incl B : incl B S -> Forall (spread T R2) B.
Proof. intro H. apply Forall_forall. intros p Hp. exact (proj1 (Forall_forall _ _) HSp p (H p Hp)). Qed.
Lemma online_ok : online_mode prm -> R2 <= R -> epoch_ok T d prm bm n R n (comp T (bm_s bm) (sg_C prm) S) (fun S' => Permutation S' S).
Proof.
  intros HMo HR S' st HP HK. assert (LS := Permutation_length HP). assert (IN := perm_incl _ _ HP).
  destruct (online_walk T d prm n R2 HC HM HD HT Hn (bm_s bm) R HR S' st 0 (exact_incl _ _ _ _ _ HO IN) (spread_incl _ IN) HK) as [st' [pos [E [W _]]]].
  exists st', pos, (map (fun p => [p]) S'), (fun _ => K). split; [rewrite online_epoch by exact HMo; rewrite LS; exact E|]. split; [exact W|].
  assert (CC : concat (map (fun p : X * Y => [p]) S') = S') by (clear; induction S' as [|p S' IH]; cbn; congruence).
  split; [|split; [rewrite map_length; exact LS|]].
  - apply Forall_forall. intros B HB. apply in_map_iff in HB. destruct HB as [p [<- Hp]].
    assert (HO1 : oracle_exact (bm_s bm) T d [p]) by (apply (exact_incl _ _ _ _ _ HO); intros q [<-|[]]; apply IN, Hp).
    split; [exact HO1|]. intros st1 HK1.
    destruct (online_moved T d prm n R2 HC HM HD HT Hn (bm_s bm) R p st1 HR HO1) as [s2 [b [_ [A _]]]]; [|exact HK1|exists s2; exact A].
    exact (proj1 (Forall_forall _ _) HSp p (IN p Hp)).
  - intros v Hv. assert (ML : length (map (fun p : X * Y => [p]) S') = n) by (rewrite map_length; exact LS).
    rewrite (vals_objective T (bm_s bm) (fun _ => K) K _ S v); [|reflexivity|rewrite CC; exact HP|lia].
    rewrite ML. f_equal. f_equal. field. apply ofN_neq0. exact Hn.
Qed.
Lemma slices_split l (b : Z) : length l = n -> (0 < b)%Z -> exists sl, sg_slices n b = Ok sl /\
  let Bs := map (fun s => slice (fst s) (snd s) l) sl in concat Bs = l /\ length Bs = batch_count n (Z.to_nat b) /\
  Forall (fun B => B <> []) Bs /\ Forall (fun B : list (X * Y) => (length B <= Z.to_nat b)%nat) Bs /\
  (forall k, n = (k * Z.to_nat b)%nat -> Forall (fun B : list (X * Y) => length B = Z.to_nat b) Bs) /\
  map (@length (X * Y)) Bs = even_sizes_of n (batch_count n (Z.to_nat b)).
Proof. intros HL Hb. destruct (slices_facts l b) as [sl F]; [lia|exact Hb|]. exists sl. rewrite HL in F. exact F. Qed.
Lemma par_ok b : sm_size (bm_s bm) = d -> parallel_steps prm b -> ofN b * ofN b * R2 <= R ->
  epoch_ok T d prm bm n R (batch_count n b) (comp T (bm_s bm) (sg_C prm * ofN n / ofN (batch_count n b)) S) (fun S' => Permutation S' S).
Proof.
  intros Hd [HB [Pb HJ]] HR S' st HP HK. assert (LS := Permutation_length HP). assert (IN := perm_incl _ _ HP).
  set (jobs := if (sg_jobs prm =? -1)%Z then Z.of_nat (sg_cpus prm) else sg_jobs prm).
  assert (EJ : jobs = Z.of_nat b /\ sg_jobs prm <> 1%Z).
  { unfold jobs. destruct (Z.eqb_spec (sg_jobs prm) (-1)); destruct HJ as [[J1 J2]|[J1 J2]]; subst b; split; lia. }
  destruct EJ as [EJ NJ]. destruct (slices_split S' jobs LS ltac:(lia)) as [sl [E1 [F1 [F2 [F3 [F4 [F5 F6]]]]]]]. rewrite EJ, Nat2Z.id in *.
  set (Bs := map (fun s => slice (fst s) (snd s) S') sl) in *.
  assert (IB : forall B, In B Bs -> incl B S) by (intros B HB'; eapply incl_tran; [apply concat_incl; exact HB'|rewrite F1; exact IN]).
  destruct (par_walk T d prm n R2 HC HM HD HT HR2 Hn (bm_s bm) R b Hd HR Bs st 0) as [st' [pos [E [W _]]]].
  { apply Forall_forall. intros B HB'. apply (exact_incl _ _ _ _ _ HO), IB, HB'. } { apply Forall_forall. intros B HB'. apply spread_incl, IB, HB'. } { exact F4. } { exact HK. }
  exists st', pos, Bs, (fun _ => K). split.
  { unfold sg_epoch. destruct (Z.eqb_spec (sg_jobs prm) 1) as [Eb1|Eb1]; [congruence|]. unfold sg_parallel. rewrite HB. cbn [ensure bind]. fold jobs. rewrite EJ, LS, E1. cbn [bind]. exact E. }
  split; [exact W|]. split; [|split; [exact F2|]].
  - apply Forall_forall. intros B HB'. assert (HO1 := exact_incl _ _ _ _ _ HO (IB B HB')). split; [exact HO1|]. intros st1 HK1.
    destruct (par_moved T d prm n R2 HC HM HD HT HR2 Hn (bm_s bm) R b B st1 Hd HO1) as [s2 [k [_ [A _]]]]; [apply spread_incl, IB, HB'| |exact HR|exact HK1|exists s2; exact A].
    exact (proj1 (Forall_forall _ _) F4 B HB').
  - intros v Hv. rewrite (vals_objective T (bm_s bm) (fun _ => K) K Bs S v); [|reflexivity|rewrite F1; exact HP|rewrite F2; apply count_pos; [exact Hn|exact Pb]]. rewrite F2. reflexivity.
Qed.
(** mini batches: the list of batches is [Bs] *)
Lemma mini_run S' b Bs st : batches_exact bm T d S -> R2 <= R -> sg_jobs prm = 1%Z -> sg_batch prm = Some b -> b <> 1%Z -> length S' = n -> incl (concat Bs) S -> Forall (fun B => B <> []) Bs ->
  (if (b =? -1)%Z then Ok [S'] else let! sl := sg_slices n b in Ok (map (fun s => slice (fst s) (snd s) S') sl)) = Ok Bs -> keeps d prm n R st -> exists st' pos,
  sg_epoch prm bm K S' st = Ok (st', pos) /\ walk T d prm n R (fun B => K / ofN (length B)) Bs st st' /\ Forall (fun B => steppable T d prm (bm_s bm) n R (K / ofN (length B)) B) Bs.
Proof.
  intros [HRe HBx] HR HJ HB Hb LS IC NE EB HK.
  assert (IB : forall B, In B Bs -> incl B S) by (intros B HB'; eapply incl_tran; [apply concat_incl; exact HB'|exact IC]).
  destruct (mini_walk T d prm n R2 HC HM HD HT HR2 Hn bm R b HRe HR Bs st 0) as [st' [pos [E [W _]]]].
  { exact NE. } { apply Forall_forall. intros B HB'. apply HBx; [apply IB, HB'|exact (proj1 (Forall_forall _ _) NE B HB')]. } { apply Forall_forall. intros B HB'. apply spread_incl, IB, HB'. } { exact HK. }
  exists st', pos. split.
  { unfold sg_epoch. rewrite HJ. cbn [Z.eqb Pos.eqb]. unfold sg_sequential. rewrite HB. destruct (Z.eqb_spec b 1) as [Eb1|Eb1]; [congruence|]. rewrite LS, EB. cbn [bind]. exact E. }
  split; [exact W|]. apply Forall_forall. intros B HB'. assert (N := proj1 (Forall_forall _ _) NE B HB'). split; [apply (exact_incl _ _ _ _ _ HO), IB, HB'|]. intros st1 HK1.
  destruct (mini_moved T d prm n R2 HC HM HD HT HR2 Hn bm R B st1 N HRe) as [s2 [_ [A _]]]; [apply HBx; [apply IB, HB'|exact N]|apply spread_incl, IB, HB'|exact HR|exact HK1|exists s2; exact A].
Qed.
Lemma equal_ok m : equal_steps prm n m -> R2 <= R -> online_mode prm \/ batches_exact bm T d S ->
  epoch_ok T d prm bm n R m (comp T (bm_s bm) (sg_C prm) S) (fun S' => Permutation S' S).
Proof.
  intros [HJ HB] HR HBx. destruct (sg_batch prm) as [b|] eqn:EB; [|subst m; apply online_ok; [split; auto|exact HR]].
  destruct (Z.eq_dec b 1) as [->|Nb].
  { assert (m = n) by (destruct HB as [[HB _]|[_ HB]]; [discriminate HB|]; rewrite HB; cbn; lia). subst m. apply online_ok; [split; auto|exact HR]. }
  destruct HBx as [[_ [E|E]]|HBx]; [congruence|congruence|]. intros S' st HP HK. assert (LS := Permutation_length HP). assert (IN := perm_incl _ _ HP).
  assert (FF : exists Bs, (if (b =? -1)%Z then Ok [S'] else let! sl := sg_slices n b in Ok (map (fun s => slice (fst s) (snd s) S') sl)) = Ok Bs /\ concat Bs = S' /\ Forall (fun B => B <> []) Bs /\
    length Bs = m /\ (0 < m)%nat /\ exists c, (0 < c)%nat /\ n = (m * c)%nat /\ Forall (fun B : list (X * Y) => length B = c) Bs).
  { destruct HB as [[-> ->]|[Pb HB]].
    - exists [S']. split; [reflexivity|]. split; [cbn; apply app_nil_r|]. split; [constructor; [|constructor]; intro E; subst S'; cbn in LS; lia|]. split; [reflexivity|]. split; [lia|].
      exists n. split; [exact Hn|]. split; [lia|]. constructor; [exact LS|constructor].
    - destruct (slices_split S' b LS Pb) as [sl [E1 [F1 [F2 [F3 [F4 [F5 F6]]]]]]]. destruct (Z.eqb_spec b (-1)) as [Eb1|Eb1]; [lia|]. rewrite E1. cbn [bind].
      exists (map (fun s => slice (fst s) (snd s) S') sl). split; [reflexivity|]. split; [exact F1|]. split; [exact F3|].
      assert (P : (0 < Z.to_nat b)%nat) by lia.
      assert (EM : batch_count n (Z.to_nat b) = m).
      { unfold batch_count. rewrite HB. symmetry. apply (Nat.div_unique _ _ _ (Z.to_nat b - 1)); [lia|]. rewrite (Nat.mul_comm m). lia. }
      rewrite EM in F2. split; [exact F2|]. split; [destruct m; [cbn in HB; lia|lia]|]. exists (Z.to_nat b). split; [exact P|]. split; [exact HB|]. exact (F5 m HB). }
  destruct FF as [Bs [F1 [F2 [F3 [F4 [Pm [c [Pc [F5 F6]]]]]]]]].
  destruct (mini_run S' b Bs st HBx HR HJ EB Nb LS ltac:(rewrite F2; exact IN) F3 F1 HK) as [st' [pos [A1 [A2 A3]]]].
  exists st', pos, Bs, (fun B => K / ofN (length B)). split; [exact A1|]. split; [exact A2|]. split; [exact A3|]. split; [exact F4|]. intros v Hv.
  rewrite (vals_objective T (bm_s bm) (fun B => K / ofN (length B)) (K / ofN c) Bs S v).
  - rewrite F4. f_equal. f_equal. rewrite F5, ofN_mult. assert (N1 := ofN_neq0 m Pm). assert (N2 := ofN_neq0 c Pc). field. auto.
  - intros B HB'. cbn beta. rewrite (proj1 (Forall_forall _ _) F6 B HB'). reflexivity.
  - rewrite F2. exact HP.
  - lia.
Qed.
Lemma factors_sizes {Z W} (C : Qc) k (Bs : list (list (Z * W))) : factors (fun B => C * ofN k / ofN (length B)) Bs = batch_factors C k (map (@length (Z * W)) Bs).
Proof.
  unfold factors, batch_factors. rewrite map_map, map_length. reflexivity.
Qed.
Lemma weighted_ok b : batches_exact bm T d S -> R2 <= R -> sg_jobs prm = 1%Z -> sg_batch prm = Some b -> (1 < b)%Z ->
  epoch_ok T d prm bm n R (batch_count n (Z.to_nat b))
    (fun v => weighted_value (batch_factors (sg_C prm) n (even_sizes_of n (batch_count n (Z.to_nat b)))) v (map (hv T (bm_s bm) v) S)) (fun S' => S' = S).
Proof.
  intros HBx HR HJ HB Hb S' st -> HK. destruct (slices_split S b eq_refl ltac:(lia)) as [sl [E1 [F1 [F2 [F3 [F4 [F5 F6]]]]]]].
  set (Bs := map (fun s => slice (fst s) (snd s) S) sl) in *.
  destruct (mini_run S b Bs st HBx HR HJ HB ltac:(lia) eq_refl ltac:(rewrite F1; apply incl_refl) F3) as [st' [pos [A1 [A2 A3]]]]; [|exact HK|].
  { destruct (Z.eqb_spec b (-1)) as [Eb1|Eb1]; [lia|]. rewrite E1. reflexivity. }
  exists st', pos, Bs, (fun B => K / ofN (length B)). split; [exact A1|]. split; [exact A2|]. split; [exact A3|]. split; [exact F2|]. intros v Hv.
  rewrite (vals_weighted T (bm_s bm) (fun B => K / ofN (length B)) Bs v); [|rewrite F2; apply count_pos; [exact Hn|lia]].
  rewrite F2, factors_sizes, F6, F1. reflexivity.
Qed.
End modes.
