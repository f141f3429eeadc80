(** Runs of LatentSSVM that settle and one that does not. *)
From Verif Require Import Model.LatentSSVM Proofs.Arrays Proofs.LearnerProofs Proofs.LatentSSVMProofs Proofs.Settle Spec.SettleSpec.

(** ** a sample with two completions and a wrong answer *)
Definition ex53_feat (h : nat) : Qc := match h with O => 1 | 1%nat => 1 + 1 | _ => 0 end.
Definition ex53_loss (h z : nat) : Qc := if Bool.eqb (h <? 2)%nat (z <? 2)%nat then 0 else 1.
Definition ex53_T : task unit nat := Task (fun _ y => (y < 3)%nat) (fun _ y => [ex53_feat y]) ex53_loss.
Definition ex53_E (_ : unit) (_ h : nat) : Prop := (h < 2)%nat.
Definition best3 (f : nat -> Qc) : nat :=
  if Qcleb (f 1%nat) (f O) then (if Qcleb (f 2%nat) (f O) then O else 2%nat) else (if Qcleb (f 2%nat) (f 1%nat) then 1%nat else 2%nat).
Definition ex53_m : lmodel unit nat :=
  LModel (SModel 1 false (fun _ y _ => Ok [ex53_feat y]) (fun _ w => Ok (best3 (fun y => dot w [ex53_feat y])))
            (fun _ y w => Ok (best3 (fun z => dot w [ex53_feat z] + ex53_loss y z))) (fun _ => false) (fun y z => Ok (ex53_loss y z)) (fun _ _ => Err AttributeError))
    (fun _ _ w => Ok (if Qcleb (dot w [ex53_feat 1]) (dot w [ex53_feat 0]) then O else 1%nat))
    (fun h => Ok (if (h <? 2)%nat then O else 2%nat)) (fun y z => Ok (ex53_loss y z)) (fun _ => Ok 1) (fun _ => Ok [O]).
Definition quarter : Qc := / ((1 + 1) * (1 + 1)).
Definition ex53_w (H : list nat) : list Qc := match H with [O] => [quarter] | _ => [/ (1 + 1)] end.
Definition ex53_bl : base_learner unit nat (list Qc) := BaseLearner (fun _ H => Ok (ex53_w H)) (fun _ H _ _ => Ok (ex53_w H)) (fun w => w) (fun _ => None).
Definition ex53_ydiff (a b : nat) : bool := negb (a =? b)%nat.
Lemma best3_best f y : (y < 3)%nat -> f y <= f (best3 f) /\ (best3 f < 3)%nat.
Proof.
  intro H. unfold best3. destruct (Qcleb_spec (f 1%nat) (f O)) as [A|A].
  - destruct (Qcleb_spec (f 2%nat) (f O)) as [B|B]; (split; [|lia]); destruct y as [|[|[|y]]]; try lia; try assumption; try apply Qcle_refl; qclra.
  - destruct (Qcleb_spec (f 2%nat) (f 1%nat)) as [B|B]; (split; [|lia]); destruct y as [|[|[|y]]]; try lia; try assumption; try apply Qcle_refl; qclra.
Qed.
Lemma ex53_implements h : (h < 3)%nat -> implements (lm_s ex53_m) ex53_T 1 tt h.
Proof.
  intro H. split; [exact H|]. split; [cbn; unfold ex53_loss; rewrite Bool.eqb_reflx; reflexivity|]. intros y' Hy. cbn. repeat split.
Qed.
Lemma ex53_exact : completed_exact (lm_s ex53_m) ex53_T ex53_E 1 (combine [tt] [0%nat]).
Proof.
  intros p h [<-|[]] Hh. cbn [fst snd] in *. unfold ex53_E in Hh. split; [apply ex53_implements; lia|]. intros w Hw.
  exists (best3 (fun z => dot w [ex53_feat z] + ex53_loss h z)). split; [reflexivity|].
  split; [apply (best3_best (fun z => dot w [ex53_feat z] + ex53_loss h z) 0%nat); lia|].
  intros y' Hy. exact (proj1 (best3_best (fun z => dot w [ex53_feat z] + ex53_loss h z) y' Hy)).
Qed.
Lemma ex53_observed : observed_loss ex53_T ex53_E (combine [tt] [0%nat]).
Proof.
  intros p h h' z _ H1 H2 _. unfold ex53_E in *. cbn. unfold ex53_loss. rewrite (proj2 (Nat.ltb_lt h 2) H1), (proj2 (Nat.ltb_lt h' 2) H2). reflexivity.
Qed.
Lemma ex53_latent w : length w = 1%nat -> Forall (latent_exact ex53_m ex53_T ex53_E 1 w) (combine [tt] [0%nat]).
Proof.
  intro Hw. constructor; [|constructor]. split; [|split].
  - split; [exists 0%nat; unfold ex53_E; lia|]. split; [intros h Hh; apply ex53_implements; cbn in Hh; unfold ex53_E in Hh; lia|]. intros h h' z. apply (ex53_observed (tt, 0%nat)). left. reflexivity.
  - eexists. split; [reflexivity|]. cbn [fst snd t_feat ex53_T]. destruct (Qcleb_spec (dot w [ex53_feat 1]) (dot w [ex53_feat 0])) as [A|A].
    + split; [unfold ex53_E; lia|]. intros [|[|h]] Hh; unfold ex53_E in Hh; [apply Qcle_refl|exact A|lia].
    + split; [unfold ex53_E; lia|]. intros [|[|h]] Hh; unfold ex53_E in Hh; [apply Qclt_le_weak; exact A|apply Qcle_refl|lia].
  - intros h Hh. apply (ex53_exact (tt, 0%nat) h (or_introl eq_refl) Hh). exact Hw.
Qed.
Lemma ex53_hinge1 w y h hs : hinges ex53_T w (combine [tt] [y]) hs -> (h < 3)%nat -> exists v, hs = [v] /\ margin ex53_T w tt y h <= v.
Proof.
  intros H Hh. unfold hinges in H. cbn [combine] in H. inversion H as [|p v r hs' H1 H2]; subst. inversion H2; subst. exists v. split; [reflexivity|]. apply H1. exact Hh.
Qed.
Lemma ex53_run k : (2 < k)%nat -> cccp_fit ex53_ydiff ex53_m ex53_bl [tt] [0%nat] k (Some [0%nat]) = Ok ([0%nat], [([0%nat], [quarter]); ([1%nat], [/ (1 + 1)])], NoChange).
Proof.
  intro H. destruct k as [|[|[|k]]]; try lia. unfold cccp_fit. cbn [bind ex53_bl bl_fit ex53_w cccp_loop bl_w bl_cons bl_refit combine mapM ex53_m lm_latent fst snd].
  replace (Qcleb (dot [quarter] [ex53_feat 1]) (dot [quarter] [ex53_feat 0])) with false by (vm_compute; reflexivity). cbn [bind mapM existsb combine ex53_ydiff fst snd Nat.eqb negb orb ex53_w].
  replace (Qcleb (dot [/ (1 + 1)] [ex53_feat 1]) (dot [/ (1 + 1)] [ex53_feat 0])) with false by (vm_compute; reflexivity). cbn [bind mapM existsb combine ex53_ydiff fst snd Nat.eqb negb orb]. reflexivity.
Qed.
Lemma square_gap a : 0 <= a * a.
Proof. assert (Q := normsq_nonneg [a]). unfold normsq in Q. cbn in Q. replace (a * a) with (a * a + 0) by ring. exact Q. Qed.
Lemma half_square a : 0 <= a * a / (1 + 1).
Proof. unfold Qcdiv. apply Qcmult_nonneg; [apply square_gap|]. vm_compute. discriminate. Qed.
Lemma ex53_first a u : 1 - a <= u -> quarter * (1 - quarter) + quarter * quarter / (1 + 1) <= quarter * u + a * a / (1 + 1).
Proof.
  intro H. assert (Q : quarter * (1 - a) <= quarter * u). { rewrite !(Qcmult_comm quarter). apply Qcmult_le_compat_r; [exact H|vm_compute; discriminate]. }
  assert (S := half_square (a - quarter)).
  assert (K : quarter * (1 - a) + a * a / (1 + 1) = quarter * (1 - quarter) + quarter * quarter / (1 + 1) + (a - quarter) * (a - quarter) / (1 + 1)) by (field; discriminate).
  set (x := quarter * (1 - a)) in *. set (y := a * a / (1 + 1)) in *. set (z := quarter * (1 - quarter) + quarter * quarter / (1 + 1)) in *. set (t := (a - quarter) * (a - quarter) / (1 + 1)) in *. set (r := quarter * u) in *. clearbody x y z t r. qclra.
Qed.
Lemma ex53_second a u : 1 - (a + a) <= u -> / (1 + 1) * / (1 + 1) / (1 + 1) <= quarter * u + a * a / (1 + 1).
Proof.
  intro H. assert (Q : quarter * (1 - (a + a)) <= quarter * u). { rewrite !(Qcmult_comm quarter). apply Qcmult_le_compat_r; [exact H|vm_compute; discriminate]. }
  assert (S := half_square (a - / (1 + 1))).
  assert (K : quarter * (1 - (a + a)) + a * a / (1 + 1) = / (1 + 1) * / (1 + 1) / (1 + 1) + (a - / (1 + 1)) * (a - / (1 + 1)) / (1 + 1)) by (unfold quarter; field; repeat split; discriminate).
  set (x := quarter * (1 - (a + a))) in *. set (y := a * a / (1 + 1)) in *. set (z := / (1 + 1) * / (1 + 1) / (1 + 1)) in *. set (t := (a - / (1 + 1)) * (a - / (1 + 1)) / (1 + 1)) in *. set (r := quarter * u) in *. clearbody x y z t r. qclra.
Qed.
Lemma ex53_near H b : In (H, b) [([0%nat], [quarter]); ([1%nat], [/ (1 + 1)])] ->
  near_minimal ex53_T 1 quarter (combine [tt] H) b 0 /\ Forall (latent_exact ex53_m ex53_T ex53_E 1 b) (combine [tt] [0%nat]).
Proof.
  intros [Q|[Q|[]]]; injection Q as <- <-; (split; [|apply ex53_latent; reflexivity]); (split; [reflexivity|]).
  - exists [1 - quarter]. split.
    + constructor; [|constructor]. split.
      * exists 2%nat. split; [cbn; lia|]. apply Qc_is_canon. vm_compute. reflexivity.
      * intros [|[|[|y]]] Hy; try (cbn in Hy; lia); vm_compute; discriminate.
    + intros v hv Hv HH. destruct v as [|a [|]]; try discriminate Hv. destruct (ex53_hinge1 [a] 0%nat 2%nat hv HH ltac:(lia)) as [u [-> Q]].
      assert (Q' : 1 - a <= u). { eapply Qcle_trans; [|exact Q]. unfold margin. cbn [t_loss t_feat ex53_T]. change (ex53_loss 0 2) with 1. change (dot [a] [ex53_feat 0]) with (a * 1 + 0). change (dot [a] [ex53_feat 2]) with (a * 0 + 0). replace (1 - (a * 1 + 0 - (a * 0 + 0))) with (1 - a) by ring. apply Qcle_refl. }
      assert (P := ex53_first a u Q'). unfold primal_value, normsq. change (lsum [1 - quarter]) with (1 - quarter + 0). change (lsum [u]) with (u + 0). change (dot [quarter] [quarter]) with (quarter * quarter + 0). change (dot [a] [a]) with (a * a + 0). rewrite !Qcplus_0_r. exact P.
  - exists [0]. split.
    + constructor; [|constructor]. split.
      * exists 1%nat. split; [cbn; lia|]. apply Qc_is_canon. vm_compute. reflexivity.
      * intros [|[|[|y]]] Hy; try (cbn in Hy; lia); vm_compute; discriminate.
    + intros v hv Hv HH. destruct v as [|a [|]]; try discriminate Hv. destruct (ex53_hinge1 [a] 1%nat 2%nat hv HH ltac:(lia)) as [u [-> Q]].
      assert (Q' : 1 - (a + a) <= u). { eapply Qcle_trans; [|exact Q]. unfold margin. cbn [t_loss t_feat ex53_T]. change (ex53_loss 1 2) with 1. change (dot [a] [ex53_feat 1]) with (a * (1 + 1) + 0). change (dot [a] [ex53_feat 2]) with (a * 0 + 0). replace (1 - (a * (1 + 1) + 0 - (a * 0 + 0))) with (1 - (a + a)) by ring. apply Qcle_refl. }
      assert (P := ex53_second a u Q'). unfold primal_value, normsq. change (lsum [0]) with (0 + 0). change (lsum [u]) with (u + 0). change (dot [/ (1 + 1)] [/ (1 + 1)]) with (/ (1 + 1) * / (1 + 1) + 0). change (dot [a] [a]) with (a * a + 0). rewrite !Qcplus_0_r.
      replace (quarter * 0 + / (1 + 1) * / (1 + 1) / (1 + 1)) with (/ (1 + 1) * / (1 + 1) / (1 + 1)) by ring. exact P.
Qed.

(** ** a base learner with a tolerance and a run without end *)
Definition flip (h : nat) : nat := match h with O => 1%nat | _ => O end.
Definition ex53_sign (h : nat) : Qc := match h with O => 1 | _ => -(1) end.
Definition ex53_T2 : task unit nat := Task (fun _ y => (y < 2)%nat) (fun _ y => [ex53_sign y]) (fun _ _ => 0).
Definition ex53_sgn (w : list Qc) : nat := if Qcleb (dot w [ex53_sign 1]) (dot w [ex53_sign 0]) then O else 1%nat.
Definition ex53_m2 : lmodel unit nat :=
  LModel (SModel 1 false (fun _ y _ => Ok [ex53_sign y]) (fun _ w => Ok (ex53_sgn w)) (fun _ _ w => Ok (ex53_sgn w)) (fun _ => false) (fun _ _ => Ok 0) (fun _ _ => Err AttributeError))
    (fun _ _ w => Ok (ex53_sgn w)) (fun h => Ok O) (fun _ _ => Ok 0) (fun _ => Ok 1) (fun _ => Ok [O]).
Definition ex53_tol (delta : Qc) : base_learner unit nat (list Qc) :=
  let w := fun H : list nat => match H with [O] => [- delta] | _ => [delta] end in
  BaseLearner (fun _ H => Ok (w H)) (fun _ H _ _ => Ok (w H)) (fun w => w) (fun _ => None).
Lemma sgn_best w y : (y < 2)%nat -> dot w [ex53_sign y] <= dot w [ex53_sign (ex53_sgn w)] /\ (ex53_sgn w < 2)%nat.
Proof.
  intro H. unfold ex53_sgn. destruct (Qcleb_spec (dot w [ex53_sign 1]) (dot w [ex53_sign 0])) as [A|A]; (split; [|lia]); destruct y as [|[|y]]; try lia; try assumption; try apply Qcle_refl; apply Qclt_le_weak; exact A.
Qed.
Lemma sgn_value a : ex53_sgn [a] = if Qcleb 0 a then O else 1%nat.
Proof.
  unfold ex53_sgn. change (dot [a] [ex53_sign 1]) with (a * -(1) + 0). change (dot [a] [ex53_sign 0]) with (a * 1 + 0).
  replace (a * -(1) + 0) with (- a) by ring. replace (a * 1 + 0) with a by ring. destruct (Qcleb_spec (- a) a) as [A|A]; destruct (Qcleb_spec 0 a) as [B|B]; try reflexivity; exfalso; qclra.
Qed.
Lemma tol_exact : completed_exact (lm_s ex53_m2) ex53_T2 ex53_E 1 (combine [tt] [0%nat]).
Proof.
  intros p h [<-|[]] Hh. cbn [fst snd] in *. unfold ex53_E in Hh. split.
  - split; [exact Hh|]. split; [reflexivity|]. intros y' Hy. cbn. repeat split.
  - intros w Hw. exists (ex53_sgn w). split; [reflexivity|]. split; [apply (sgn_best w 0%nat); lia|]. intros y' Hy. apply Qcplus_le_compat; [exact (proj1 (sgn_best w y' Hy))|apply Qcle_refl].
Qed.
Lemma tol_observed : observed_loss ex53_T2 ex53_E (combine [tt] [0%nat]).
Proof. intros p h h' z _ _ _ _. reflexivity. Qed.
Lemma tol_latent w : length w = 1%nat -> Forall (latent_exact ex53_m2 ex53_T2 ex53_E 1 w) (combine [tt] [0%nat]).
Proof.
  intro Hw. constructor; [|constructor]. split; [|split].
  - split; [exists 0%nat; unfold ex53_E; lia|]. split; [intros h Hh; exact (proj1 (tol_exact (tt, 0%nat) h (or_introl eq_refl) Hh))|]. intros h h' z _ _ _. reflexivity.
  - eexists. split; [reflexivity|]. split; [apply (sgn_best w 0%nat); lia|]. intros h Hh. exact (proj1 (sgn_best w h Hh)).
  - intros h Hh. apply (tol_exact (tt, 0%nat) h (or_introl eq_refl) Hh). exact Hw.
Qed.
Lemma tol_near delta h : 0 <= delta -> delta <= 1 -> (h < 2)%nat ->
  near_minimal ex53_T2 1 1 (combine [tt] [h]) (bl_w (ex53_tol delta) (match h with O => [- delta] | _ => [delta] end)) (delta + delta + delta).
Proof.
  intros D0 D1 Hh. split; [destruct h; reflexivity|]. exists [delta + delta]. split.
  - constructor; [|constructor]. cbn [fst snd]. assert (K : forall y, (y < 2)%nat -> margin ex53_T2 (match h with O => [- delta] | _ => [delta] end) tt h y = if (h =? y)%nat then 0 else delta + delta).
    { intros y Hy. unfold margin. cbn [t_loss t_feat ex53_T2]. destruct h as [|[|h]]; try lia; destruct y as [|[|y]]; try lia; cbn [Nat.eqb];
      [change (dot [- delta] [ex53_sign 0]) with (- delta * 1 + 0)|change (dot [- delta] [ex53_sign 0]) with (- delta * 1 + 0); change (dot [- delta] [ex53_sign 1]) with (- delta * -(1) + 0)
      |change (dot [delta] [ex53_sign 0]) with (delta * 1 + 0); change (dot [delta] [ex53_sign 1]) with (delta * -(1) + 0)|change (dot [delta] [ex53_sign 1]) with (delta * -(1) + 0)]; ring. }
    split.
    + exists (flip h). assert (F : (flip h < 2)%nat) by (destruct h; cbn; lia). split; [exact F|]. cbn [ex53_tol bl_w]. rewrite (K _ F). destruct h as [|[|h]]; try lia; reflexivity.
    + intros y Hy. cbn [ex53_tol bl_w]. rewrite (K y Hy). destruct (h =? y)%nat; qclra.
  - intros v hv Hv HH. destruct v as [|a [|]]; try discriminate Hv. unfold hinges in HH. cbn [combine] in HH. inversion HH as [|p u r hs' H1 H2]; subst. inversion H2; subst. destruct H1 as [_ H1].
    specialize (H1 h Hh). unfold margin in H1. cbn [t_loss t_feat ex53_T2 fst snd] in H1. set (x := dot [a] [ex53_sign h]) in *. clearbody x.
    unfold primal_value. change (lsum [delta + delta]) with (delta + delta + 0). change (lsum [u]) with (u + 0). cbn [ex53_tol bl_w].
    replace (normsq (match h with O => [- delta] | _ => [delta] end)) with (delta * delta) by (destruct h; unfold normsq; [change (dot [- delta] [- delta]) with (- delta * - delta + 0)|change (dot [delta] [delta]) with (delta * delta + 0)]; ring).
    assert (S := normsq_nonneg [a]). assert (DD : delta * delta <= delta). { replace delta with (1 * delta) at 3 by ring. apply Qcmult_le_compat_r; assumption. }
    assert (E1 : delta * delta / (1 + 1) + delta * delta / (1 + 1) = delta * delta) by (field; discriminate). assert (E2 : normsq [a] / (1 + 1) + normsq [a] / (1 + 1) = normsq [a]) by (field; discriminate).
    set (n := normsq [a]) in *. set (q := delta * delta) in *. set (q2 := q / (1 + 1)) in *. set (n2 := n / (1 + 1)) in *. clearbody n q q2 n2. rewrite !Qcmult_1_l, !Qcplus_0_r. clear HH H2 Hv. qclra.
Qed.
Definition tol_w (delta : Qc) (h : nat) : list Qc := match h with O => [- delta] | _ => [delta] end.
Lemma tol_loop delta k : 0 < delta -> forall h, (h < 2)%nat -> exists l, cccp_loop ex53_ydiff ex53_m2 (ex53_tol delta) [tt] [0%nat] k (tol_w delta h) [h] = Ok (l, LatentIter) /\ length l = k /\
  Forall (fun q => exists h', (h' < 2)%nat /\ q = ([h'], tol_w delta h')) l.
Proof.
  intro D. induction k as [|k IH]; intros h Hh; cbn [cccp_loop]; [exists []; repeat split; constructor|].
  assert (K : ex53_sgn (tol_w delta h) = flip h).
  { destruct h; unfold tol_w; rewrite sgn_value.
    - destruct (Qcleb_spec 0 (- delta)) as [A|A]; [exfalso; qclra|reflexivity].
    - destruct (Qcleb_spec 0 delta) as [A|A]; [reflexivity|exfalso; qclra]. }
  assert (M : mapM (fun p => lm_latent ex53_m2 (fst p) (snd p) (bl_w (ex53_tol delta) (tol_w delta h))) (combine [tt] [0%nat]) = Ok [flip h]) by (rewrite <- K; reflexivity).
  rewrite M. cbn [bind]. destruct (IH (flip h)) as [l [A1 [A2 A3]]]; [destruct h; cbn; lia|].
  assert (DF : existsb (fun q => ex53_ydiff (fst q) (snd q)) (combine [flip h] [h]) = true) by (destruct h as [|[|h]]; try lia; reflexivity). rewrite DF. cbn [negb].
  change (bl_cons (ex53_tol delta) (tol_w delta h)) with (@None (list (list (ncon nat)))). cbn iota. cbn [bind].
  assert (RF : bl_refit (ex53_tol delta) [tt] [flip h] None (tol_w delta h) = Ok (tol_w delta (flip h))) by (destruct h as [|[|h]]; try lia; reflexivity). rewrite RF. cbn [bind].
  rewrite A1. cbn [bind fst snd]. eexists. split; [reflexivity|]. split; [cbn [length]; lia|]. constructor; [|exact A3].
  exists (flip h). split; [destruct h; cbn; lia|reflexivity].
Qed.
Lemma tol_never_ends eps k : 0 < eps -> exists bl l,
  cccp_fit ex53_ydiff ex53_m2 bl [tt] [0%nat] k (Some [0%nat]) = Ok ([0%nat], l, LatentIter) /\ length l = k /\
  forall H b, In (H, b) l -> near_minimal ex53_T2 1 1 (combine [tt] H) (bl_w bl (b : list Qc)) eps /\ Forall (latent_exact ex53_m2 ex53_T2 ex53_E 1 (bl_w bl b)) (combine [tt] [0%nat]).
Proof.
  intro He. assert (D : exists delta, 0 < delta /\ delta <= 1 /\ delta + delta + delta <= eps).
  { destruct (Qcleb_spec (1 + 1 + 1) eps) as [A|A].
    - exists 1. split; [reflexivity|]. split; [apply Qcle_refl|exact A].
    - assert (K : eps = eps / (1 + 1 + 1) + eps / (1 + 1 + 1) + eps / (1 + 1 + 1)) by (field; discriminate). exists (eps / (1 + 1 + 1)). set (x := eps / (1 + 1 + 1)) in *. clearbody x. repeat split; qclra. }
  destruct D as [delta [D1 [D2 D3]]]. exists (ex53_tol delta).
  assert (R : exists l, cccp_fit ex53_ydiff ex53_m2 (ex53_tol delta) [tt] [0%nat] k (Some [0%nat]) = Ok ([0%nat], l, LatentIter) /\ length l = k /\ Forall (fun q => exists h', (h' < 2)%nat /\ q = ([h'], tol_w delta h')) l).
  { unfold cccp_fit. cbn [bind]. destruct k as [|k]; [exists []; repeat split; constructor|]. change (bl_fit (ex53_tol delta) [tt] [0%nat]) with (Ok (tol_w delta 0)). cbn [bind]. destruct (tol_loop delta k D1 0%nat ltac:(lia)) as [l [A1 [A2 A3]]].
    rewrite A1. cbn [bind fst snd]. eexists. split; [reflexivity|]. split; [cbn [length]; lia|]. constructor; [|exact A3]. exists 0%nat. split; [lia|reflexivity]. }
  destruct R as [l [A1 [A2 A3]]]. exists l. split; [exact A1|]. split; [exact A2|]. intros H b Q. rewrite Forall_forall in A3. destruct (A3 _ Q) as [h [Hh EQ]]. injection EQ as -> ->.
  split; [|apply tol_latent; cbn [ex53_tol bl_w]; destruct h; reflexivity].
  assert (N := tol_near delta h (Qclt_le_weak _ _ D1) D2 Hh). destruct N as [N1 [hs [N2 N3]]]. split; [exact N1|]. exists hs. split; [exact N2|]. intros v hv Hv Hhv.
  eapply Qcle_trans; [apply (N3 v hv Hv Hhv)|]. apply Qcplus_le_compat; [apply Qcle_refl|exact D3].
Qed.
