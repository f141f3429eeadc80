(** switch_to: the guarantee of a fit that stops by itself is that of the oracle switched to. *)
From Coq Require Import ZArith.
From Verif Require Import Model.NSlack Model.OneSlack Spec.OneSlackSpec Spec.NSlackSpec Spec.NearSpec Proofs.Arrays Proofs.LossProofs Proofs.LearnerProofs Proofs.NSlackProofs3 Proofs.NSlackProofs4
  Proofs.OneSlackProofs Proofs.OneSlackProofs2 Proofs.OneSlackProofs4 Proofs.CuttingPlane4 Proofs.CuttingPlane5 Proofs.Near Proofs.Near2 Proofs.NearExamples Proofs.NSlackExamples Proofs.OneSlackExamples Spec.QPSpec Spec.CuttingPlaneSpec.

Section one.
Context {X Y : Type} (T : task X Y) (d : nat) (ceq : Y -> Y -> res bool) (solve : qp_solver) (prm : os_params) (Xs : list X) (Ys : list Y) (eps R2 L : Qc).
Variables (bm b : bmodel X Y).
Hypothesis HN : (0 < length Xs)%nat.
Hypothesis HC : 0 < o_C prm.
Hypothesis HT : 0 < o_tol prm.
Hypothesis HR : 0 < R2.
Hypothesis HW : o_window prm = O.
Hypothesis HNeg : o_neg prm = None.
Hypothesis HX : qp_exact solve.
Hypothesis HB : forall p y', In p (combine Xs Ys) -> t_label T (fst p) y' ->
     normsq (vsub (t_feat T (fst p) (snd p)) (t_feat T (fst p) y')) <= R2 /\ t_loss T (snd p) y' <= L.
Let K := o_C prm * ofN (length Xs).
Let rho := qp_reg * (K * K) / (1 + 1).
Lemma one_switch_converges st reason : 0 <= eps -> usable T d prm Xs Ys bm -> usable T d prm Xs Ys b -> batch_near eps b T d Xs Ys ->
  K * L + rho < ofN (o_max_iter prm - 2) * (gain K (o_tol prm) R2 - rho) ->
  os_fit ceq solve prm bm (Some b) Xs Ys Cold = Ok (st, reason) ->
  reason = OSNoConstraint /\
  forall hs w' hs', hinges T (o_w st) (combine Xs Ys) hs -> length w' = d -> hinges T w' (combine Xs Ys) hs' ->
    primal_value (o_C prm) (o_w st) hs <= primal_value (o_C prm) w' hs' + K * (o_tol prm + eps) + qp_reg * (K * K).
Proof.
  intros HE HU HUb BN HM H. assert (HSU : forall b', Some b = Some b' -> usable T d prm Xs Ys b') by (intros b' E; injection E as <-; exact HUb).
  destruct (CuttingPlane2.fit_rounds T d Xs Ys (batch_good _ _ _ _ _ (proj1 HU)) HN ceq solve prm R2 L rho HC HT HR HW HNeg HX (rho_nonneg prm Xs) (or_intror (Qcle_refl _))
    (fun Yh c => mean_bounds T d R2 L bm Xs Ys Yh c HN (proj1 HU) HB) bm (Some b) st reason HU HSU H) as [A1 [A2 [A3 A4]]].
  assert (ER : reason = OSNoConstraint). { apply A4. cbn [CuttingPlane2.extra]. replace (o_max_iter prm - 1 - 1)%nat with (o_max_iter prm - 2)%nat by lia. exact HM. }
  split; auto. subst reason. intros hs w' hs' Hh Hw' Hh'.
  assert (HS : qp_sound solve). { intros p x v E. apply HX in E. destruct E as [[E _] V]. auto. }
  destruct (one_slack_final T d ceq solve prm eps Xs Ys HE Cold bm (Some b) st HN (Qclt_le_weak _ _ HC) (Qclt_le_weak _ _ HT) HS HU HSU BN I H hs Hh) as [_ [_ B]].
  exact (B HX HNeg A1 w' hs' Hw' Hh').
Qed.
End one.

Section many.
Context {X Y : Type} (T : task X Y) (d : nat) (yeq : Y -> Y -> bool) (solve : qp_solver) (prm : ns_params) (eps : Qc).
Variables (m b : smodel X Y) (Xs : list X) (Ys : list Y).
Lemma many_switch_converges (labs : X * Y -> list Y) old st curve primal reason : 0 <= eps -> 0 <= ns_C prm -> length Xs = length Ys -> sm_size m = d ->
  oracle_ok m T d (combine Xs Ys) -> oracle_near eps b T d (combine Xs Ys) ->
  ns_window prm = O -> ns_neg prm = None -> ns_tol prm <= 0 -> qp_exact solve -> answers_all solve (ns_C prm) (length Xs) T (combine Xs Ys) ->
  (forall a, yeq a a = true) -> yeq_ok T yeq (combine Xs Ys) -> zero_loss_same T (combine Xs Ys) ->
  (forall p y', In p (combine Xs Ys) -> t_label T (fst p) y' -> In y' (labs p)) ->
  (list_sum (map (fun p => length (labs p)) (combine Xs Ys)) + 1 < ns_max_iter prm)%nat ->
  ns_fit yeq solve prm m (Some b) Xs Ys None old = Ok (st, curve, primal, reason) ->
  reason = NoNewConstraint /\
  forall hs w' hs', hinges T (st_w st) (combine Xs Ys) hs -> length w' = d -> hinges T w' (combine Xs Ys) hs' ->
    primal_value (ns_C prm) (st_w st) hs <= primal_value (ns_C prm) w' hs' +
       ns_C prm * (ofN (length Xs) * (small + eps)) + qp_reg * (ofN (length Xs) * (ns_C prm * ns_C prm)).
Proof.
  intros HE HC HXY Hd HO HN HW HNeg HT HX HA HY HYO HZ HL HM H.
  assert (HOS : forall m', Some b = Some m' -> oracle_ok m' T d (combine Xs Ys)) by (intros m' E; injection E as <-; exact (near_is_ok _ _ _ _ _ HN)).
  destruct (many_finite T d yeq solve prm m (Some b) Xs Ys labs old st curve primal reason HXY Hd HO HOS HW HY HL H) as [_ F].
  destruct (nfit_mono T d yeq solve prm m (Some b) Xs Ys old st curve primal reason HC HXY Hd HO HOS HW HNeg HX HY HA H) as [_ M].
  assert (ER : reason = NoNewConstraint). { destruct reason; [reflexivity|exfalso; exact (M HT eq_refl)|exfalso; specialize (F eq_refl); cbv iota in F; lia]. }
  split; auto. subst reason. exact (n_slack_final T d yeq solve prm eps Xs Ys HC HXY m (Some b) old st curve primal HX HNeg Hd HO HOS HN HYO HZ H).
Qed.
End many.

(** ** examples *)
(** inference that always returns the true output *)
Definition blind {X Y} (m : smodel X Y) : smodel X Y :=
  SModel (sm_size m) (sm_rescale m) (sm_joint m) (sm_inference m) (fun _ y _ => Ok y) (sm_tuple m) (sm_loss m) (sm_closs m).
Lemma blind_ok {X Y} (T : task X Y) (m : smodel X Y) d S : oracle_ok m T d S -> oracle_ok (blind m) T d S.
Proof. intros H p Hp. destruct (H p Hp) as [A _]. split; [exact A|]. intros w _. exists (snd p). split; [reflexivity|apply A]. Qed.

(** ** a first oracle that finds nothing *)
Section nothing.
Context {X Y : Type} (T : task X Y) (d : nat) (ceq : Y -> Y -> res bool) (solve : qp_solver) (Xs : list X) (Ys : list Y).
Lemma update_budget C i j tol chk brk neg cache th win ct (m : smodel X Y) cs xs ys yhs :
  update_samples ceq (OSParams C i tol chk brk neg cache th win ct) m cs xs ys yhs = update_samples ceq (OSParams C j tol chk brk neg cache th win ct) m cs xs ys yhs.
Proof.
  revert xs ys yhs. induction cs as [|c cs IH]; intros xs ys yhs; [reflexivity|]. destruct xs, ys, yhs; try reflexivity. cbn [update_samples]. rewrite IH. reflexivity.
Qed.
Lemma os_loop_budget C i j tol chk brk neg cache th win ct gt k : forall (bm : bmodel X Y) sw st,
  os_loop ceq solve (OSParams C i tol chk brk neg cache th win ct) Xs Ys gt k bm sw st =
  os_loop ceq solve (OSParams C j tol chk brk neg cache th win ct) Xs Ys gt k bm sw st.
Proof.
  induction k as [|k IH]; intros bm sw st; [reflexivity|]. cbn [os_loop].
  change (from_cache (OSParams C i tol chk brk neg cache th win ct)) with (@from_cache X Y (OSParams C j tol chk brk neg cache th win ct)).
  change (find_new (OSParams C i tol chk brk neg cache th win ct)) with (@find_new X Y (OSParams C j tol chk brk neg cache th win ct)).
  assert (U : forall m c xs ys yhs, @update_cache X Y ceq (OSParams C i tol chk brk neg cache th win ct) m c xs ys yhs = update_cache ceq (OSParams C j tol chk brk neg cache th win ct) m c xs ys yhs).
  { intros. unfold update_cache. rewrite (update_budget C i j). reflexivity. }
  change (@os_step Y solve (OSParams C i tol chk brk neg cache th win ct)) with (@os_step Y solve (OSParams C j tol chk brk neg cache th win ct)).
  destruct (from_cache _ _ _ _ _) as [[c|]|]; cbn [bind]; [| |reflexivity].
  - destruct (os_step _ _ _ _ _ _); cbn [bind]; [apply IH|reflexivity].
  - destruct (find_new _ _ _ _ _ _ _ _) as [[[Yh c]|]|]; cbn [bind]; [| |reflexivity].
    + rewrite U. destruct (update_cache _ _ _ _ _ _ _); cbn [bind]; [|reflexivity]. destruct (os_step _ _ _ _ _ _); cbn [bind]; [apply IH|reflexivity].
    + destruct sw; [apply IH|reflexivity].
Qed.
Lemma switch_at_once C k tol chk neg cache th win ct (bm b : bmodel X Y) Yh :
  (0 < length Xs)%nat -> batch_ok bm T d Xs Ys -> batch_ok b T d Xs Ys -> bm_laug bm Xs Ys (vzero d) = Ok Yh ->
  (loss_sum T Ys Yh = 0 /\ feat_sum T d Xs Yh = feat_sum T d Xs Ys) \/ 1 + loss_sum T Ys Yh / ofN (length Xs) < tol ->
  os_fit ceq solve (OSParams C (S k) tol chk false neg cache th win ct) bm (Some b) Xs Ys Cold =
  os_fit ceq solve (OSParams C k tol chk false neg cache th win ct) b None Xs Ys Cold.
Proof.
  intros HN HB Hb EY HL. assert (G := batch_good _ _ _ _ _ HB). set (prm := OSParams C (S k) tol chk false neg cache th win ct).
  destruct (OneSlackProofs4.first_round T d ceq (OSParams C (S k) tol chk false neg 0 th 0 ct) Xs Ys HN eq_refl (or_introl eq_refl) (or_introl eq_refl) G bm Yh HB EY) as [c [bad [HM [EF EB]]]].
  assert (B : bad = true).
  { rewrite EB. cbn [o_tol]. destruct HM as [_ [M1 M2]]. destruct HL as [[L1 L2]|L].
    - assert (Z : snd c = 0). { rewrite M2, L1. unfold Qcdiv. ring. }
      assert (Z2 : fst c = vzero d).
      { rewrite M1, L2. apply vec_ext. rewrite vscale_length, vsub_length, vzero_length; auto. rewrite (gt_len T d Xs Ys G). reflexivity.
        intros i _. rewrite get1_vscale, get1_vsub, get1_vzero by auto. ring. }
      rewrite Z, Z2, OneSlackProofs4.vec_eqb_refl. destruct (Qceqb_spec 0 0) as [_|NZ]; [|congruence]. cbn [andb]. rewrite orb_true_r. reflexivity.
    - rewrite M2. destruct (Qcltb_spec (loss_sum T Ys Yh / ofN (length Xs) + 1) tol) as [_|Z]; [reflexivity|].
      exfalso. rewrite Qcplus_comm in Z. revert L. apply Qcle_not_lt. exact Z. }
  rewrite B in EF. change (find_new _ bm) with (find_new prm bm) in EF.
  unfold os_fit. rewrite (proj1 HB), (proj1 Hb). change (os_start (OSParams C k tol chk false neg cache th win ct)) with (@os_start Y prm).
  cbn [os_start bind]. assert (GT := gt_value T d Xs Ys bm HB). assert (GTb := gt_value T d Xs Ys b Hb). rewrite GT, GTb. cbn [bind]. cbn [prm o_max_iter os_loop]. fold prm.
  unfold from_cache at 1. cbn [o_icache bind o_w o_slack o_cons]. rewrite EF. cbn [bind]. unfold prm at 1. rewrite (os_loop_budget C (S k) k). reflexivity.
Qed.
End nothing.
