From Coq Require Import ZArith Permutation.
From Verif Require Import Model.Subgradient Model.BatchInstances Spec.TaskInstances Proofs.Arrays Proofs.LossProofs Proofs.CRFProofs Proofs.LearnerProofs Proofs.QPProofs
  Proofs.NSlackProofs5 Proofs.NSlackExamples Proofs.OneSlackProofs Proofs.OneSlackProofs2 Proofs.OneSlackExamples Proofs.SubgradientProofs Proofs.SubgradientProofs2 Proofs.SubgradientProofs3 Proofs.SubgradientProofs4 Spec.SubgradientSpec.

(** ** online training succeeds *)
Section total.
Context {X Y : Type} (T : task X Y) (d : nat) (prm : sg_params) (bm : bmodel X Y) (n : nat).
Hypothesis HC : 0 < sg_C prm.
Hypothesis HT : 0 < sg_t0 prm.
Hypothesis Hn : (0 < n)%nat.
Hypothesis HO : online_mode prm.
Lemma pos_step t : can_step prm n t.
Proof.
  split.
  - intro E. assert (P : 0 < sg_C prm * ofN n) by (apply Qcmult_pos; [exact HC|apply ofN_pos; exact Hn]). rewrite E in P. discriminate P.
  - intros _. apply ofN_plus_pos. exact HT.
Qed.
Lemma online_total lr : forall S st pos, oracle_ok (bm_s bm) T d S -> shaped d st ->
  exists st' pos', sg_online prm (bm_s bm) n lr S st pos = Ok (st', pos') /\ shaped d st'.
Proof.
  induction S as [|p S IH]; intros st pos HOr SH; cbn [sg_online]; [eauto|].
  destruct (HOr p (or_introl eq_refl)) as [HI HL]. assert (SH' := SH). destruct SH' as [S1 [S2 S3]]. destruct (HL _ S1) as [yh [E LY]].
  assert (FC := find_constraint_value (bm_s bm) T d (fst p) (snd p) (sg_w st) None yh HI S1 LY E).
  assert (LD : length (vsub (t_feat T (fst p) (snd p)) (t_feat T (fst p) yh)) = length (sg_w st)).
  { destruct HI as [A1 [_ A3]]. destruct (A3 _ A1) as [B1 _]. destruct (A3 _ LY) as [B2 _]. rewrite vsub_length; congruence. }
  destruct (solve_total prm n lr _ st (pos_step _) LD) as [st' ES]; [congruence|]. unfold sg_online_step. rewrite FC. cbn [bind]. rewrite ES. cbn [bind fst snd].
  apply IH; [intros q Hq; apply HOr; right; exact Hq|]. exact (proj1 (solve_shaped _ _ _ _ _ _ _ SH ES)).
Qed.
Lemma objective_total S w : (0 < length S)%nat -> oracle_ok (bm_s bm) T d S -> length w = d -> exists o, sg_objective prm bm S w = Ok o.
Proof.
  intros HS HOr Hw. unfold sg_objective, objective_primal. rewrite split_pairs.
  destruct (mapM_total (fun p => find_constraint (bm_s bm) (fst p) (snd p) w None true) S) as [cs E].
  { intros p Hp. destruct (HOr p Hp) as [HI HL]. destruct (HL _ Hw) as [yh [E LY]]. rewrite (find_constraint_value (bm_s bm) T d (fst p) (snd p) w None yh HI Hw LY E). eauto. }
  rewrite E. cbn [bind]. apply mapM_length in E. destruct (Nat.eqb_spec (length cs) 0); [lia|]. cbn [negb ensure bind]. eauto.
Qed.
Lemma oracle_perm (m : smodel X Y) S S' : Permutation S' S -> oracle_ok m T d S -> oracle_ok m T d S'.
Proof. intros HP H p Hp. apply H. eapply Permutation_in; eauto. Qed.
Lemma loop_total lr shuf : (forall it S, Permutation (shuf it S) S) -> forall k it S st c, length S = n -> oracle_ok (bm_s bm) T d S -> shaped d st ->
  exists st' c' S', sg_loop prm bm lr shuf k it S st c = Ok (st', c', S') /\ shaped d st' /\ Permutation S' S.
Proof.
  intro HS. induction k as [|k IH]; intros it S st c HL HOr SH; cbn [sg_loop]; [eauto 6|].
  assert (LS : length (shuf it S) = n) by (rewrite <- HL; apply Permutation_length, HS).
  assert (OS := oracle_perm _ _ _ (HS it S) HOr).
  rewrite online_epoch by auto. rewrite LS. destruct (online_total lr (shuf it S) st 0 OS SH) as [st1 [pos [E1 E2]]]. rewrite E1. cbn [bind fst snd].
  destruct ((pos =? 0)%Z && sg_break prm)%bool; [eauto 6|].
  destruct (objective_total (shuf it S) (sg_self st1)) as [o EO]; [lia|exact OS|apply E2|]. rewrite EO. cbn [bind].
  destruct (IH (Datatypes.S it) (shuf it S) st1 (c ++ [o]) LS OS E2) as [st' [c' [S' [A1 [A2 A3]]]]]. exists st', c', S'. split; [exact A1|]. split; [exact A2|].
  eapply Permutation_trans; [exact A3|apply HS].
Qed.
Lemma fit_total shuf S L : length S = n -> (forall it S, Permutation (shuf it S) S) -> sm_size (bm_s bm) = d -> oracle_ok (bm_s bm) T d S ->
  (forall w lr c, sl_fitted L = Some (w, lr, c) -> length w = d) -> exists L', sg_fit prm bm shuf false S L = Ok L'.
Proof.
  intros HL HS Hd HOr HLw. unfold sg_fit. cbn [bind fst snd].
  match goal with |- context [sg_loop prm bm ?lr shuf _ 0 S ?st []] => destruct (loop_total lr shuf HS (sg_max_iter prm) 0 S st [] HL HOr) as [st' [c' [S' [A1 [A2 A3]]]]] end.
  - rewrite Hd. destruct (sl_fitted L) as [[[w l] c]|] eqn:E; split; cbn [sg_w sg_self sg_grad]; try split; try apply vzero_length; eapply HLw; reflexivity.
  - rewrite A1. cbn [bind]. destruct (objective_total S' (sg_self st')) as [o EO]; [rewrite (Permutation_length A3); lia|eapply oracle_perm; eauto|apply A2|].
    rewrite EO. cbn [bind]. eauto.
Qed.
End total.

(** ** failures *)
Lemma fit_fails {X Y} prm (bm : bmodel X Y) shuf S L e : (0 < sg_max_iter prm)%nat ->
  (forall lr, sg_epoch prm bm lr (shuf O S) (fit_start bm L) = Err e) -> sg_fit prm bm shuf false S L = Err e.
Proof.
  intros HN H. unfold sg_fit. cbn [bind fst snd]. destruct (sg_max_iter prm) as [|k]; [lia|]. cbn [sg_loop].
  fold (fit_start bm L). change (SGState _ _ _ _) with (fit_start bm L). rewrite H. reflexivity.
Qed.
Lemma jobs_batch {X Y} prm (bm : bmodel X Y) shuf S L b : (0 < sg_max_iter prm)%nat -> sg_jobs prm <> 1%Z -> sg_batch prm = Some b ->
  sg_fit prm bm shuf false S L = Err ValueError.
Proof.
  intros HN HJ HB. apply fit_fails; [exact HN|]. intro lr. unfold sg_epoch. destruct (Z.eqb_spec (sg_jobs prm) 1); [congruence|].
  unfold sg_parallel. rewrite HB. reflexivity.
Qed.
Lemma jobs_zero {X Y} prm (bm : bmodel X Y) shuf S L : (0 < sg_max_iter prm)%nat -> sg_jobs prm = 0%Z -> sg_batch prm = None ->
  sg_fit prm bm shuf false S L = Err ZeroDivisionError.
Proof. intros HN HJ HB. apply fit_fails; [exact HN|]. intro lr. unfold sg_epoch, sg_parallel. rewrite HJ, HB. reflexivity. Qed.
Lemma batch_bad {X Y} prm (bm : bmodel X Y) shuf S L b : (0 < sg_max_iter prm)%nat -> sg_jobs prm = 1%Z -> sg_batch prm = Some b -> (b < -1 \/ b = 0)%Z ->
  sg_fit prm bm shuf false S L = Err (if (b =? 0)%Z then ZeroDivisionError else ValueError).
Proof.
  intros HN HJ HB Hb. apply fit_fails; [exact HN|]. intro lr. unfold sg_epoch, sg_sequential. rewrite HJ, HB. cbn [Z.eqb Pos.eqb].
  destruct (Z.eqb_spec b 1); [lia|]. destruct (Z.eqb_spec b (-1)); [lia|]. unfold sg_slices. destruct (Z.eqb_spec b 0); [reflexivity|].
  destruct (Z.ltb_spec b 0); [reflexivity|lia].
Qed.
Lemma first_step_fails {X Y} (T : task X Y) d prm (bm : bmodel X Y) shuf S e : (0 < sg_max_iter prm)%nat -> online_mode prm -> S <> [] ->
  (forall it S, Permutation (shuf it S) S) -> sm_size (bm_s bm) = d -> oracle_ok (bm_s bm) T d S ->
  (forall lr dj st, length dj = d -> shaped d st -> sg_t st = O -> solve_subgradient prm (length S) lr dj st = Err e) ->
  sg_fit prm bm shuf false S sg_new = Err e.
Proof.
  intros HN HO HS HP Hd HOr HE. apply fit_fails; [exact HN|]. intro lr. rewrite online_epoch by auto.
  assert (LS := Permutation_length (HP O S)). rewrite LS. destruct (shuf O S) as [|p r] eqn:EP.
  { destruct S; [congruence|]. cbn in LS. discriminate LS. }
  assert (In p S) by (eapply Permutation_in; [apply (HP O S)|rewrite EP; left; reflexivity]).
  destruct (HOr p H) as [HI HL]. unfold fit_start. cbn [sg_new sl_fitted sl_t]. rewrite Hd. set (st := SGState _ _ _ _).
  destruct (HL (sg_w st)) as [yh [E LY]]; [apply vzero_length|].
  assert (FC := find_constraint_value (bm_s bm) T d (fst p) (snd p) (sg_w st) None yh HI (vzero_length d) LY E).
  cbn [sg_online]. unfold sg_online_step. rewrite FC. cbn [bind]. rewrite HE; [reflexivity| |split; [|split]; apply vzero_length|reflexivity].
  destruct HI as [A1 [_ A3]]. destruct (A3 _ A1) as [B1 _]. destruct (A3 _ LY) as [B2 _]. rewrite vsub_length; congruence.
Qed.
Lemma online_C0 {X Y} (T : task X Y) d prm (bm : bmodel X Y) shuf S : (0 < sg_max_iter prm)%nat -> online_mode prm -> S <> [] ->
  (forall it S, Permutation (shuf it S) S) -> sm_size (bm_s bm) = d -> oracle_ok (bm_s bm) T d S -> sg_C prm = 0 ->
  sg_fit prm bm shuf false S sg_new = Err NonFinite.
Proof.
  intros HN HO HS HP Hd HOr HC. eapply first_step_fails; eauto. intros lr dj st _ _ _. unfold solve_subgradient. rewrite HC.
  replace (0 * ofN (length S)) with 0 by ring. reflexivity.
Qed.
Lemma online_t0 {X Y} (T : task X Y) d prm (bm : bmodel X Y) shuf S : (0 < sg_max_iter prm)%nat -> online_mode prm -> S <> [] ->
  (forall it S, Permutation (shuf it S) S) -> sm_size (bm_s bm) = d -> oracle_ok (bm_s bm) T d S -> sg_C prm <> 0 -> sg_t0 prm = 0 -> sg_decay prm <> O ->
  sg_fit prm bm shuf false S sg_new = Err ZeroDivisionError.
Proof.
  intros HN HO HS HP Hd HOr HC HT HD. eapply first_step_fails; eauto. intros lr dj st LD [S1 [S2 S3]] ET. unfold solve_subgradient.
  assert (NZ : sg_C prm * ofN (length S) <> 0).
  { intro E. apply Qcmult_integral in E. destruct E as [E|E]; [congruence|]. revert E. apply ofN_neq0. destruct S; [congruence|cbn; lia]. }
  destruct (Qceqb_spec (sg_C prm * ofN (length S)) 0); [congruence|]. cbn [negb ensure bind].
  unfold np_vsub, np_vadd. rewrite vscale_length, LD, S1, Nat.eqb_refl. cbn [bind].
  assert (L : length (vsub dj (vscale (/ (sg_C prm * ofN (length S))) (sg_w st))) = d) by (rewrite vsub_length; rewrite ?vscale_length; congruence).
  rewrite !vscale_length, L, S3, Nat.eqb_refl. cbn [bind]. unfold sg_rate. destruct (Nat.eqb_spec (sg_decay prm) 0); [congruence|].
  rewrite ET, HT, ofN_0. replace (0 + 0) with 0 by ring. reflexivity.
Qed.
Lemma rescale_mini prm m shuf S L r : mini_mode prm -> (0 < sg_max_iter prm)%nat -> mc_rescale m = true ->
  sg_fit prm (mc_bmodel m) shuf false S L = Ok r -> False.
Proof.
  intros [E1 [b [E2 E3]]] HN HR H. apply fit_split in H. destruct H as [lr [c0 [st [c [S' [o [_ [A _]]]]]]]].
  destruct (sg_max_iter prm) as [|k]; [lia|]. cbn [sg_loop] in A. apply bind_ok in A. destruct A as [[s pos] [A _]].
  unfold sg_epoch in A. rewrite E1 in A. cbn [Z.eqb Pos.eqb] in A. unfold sg_sequential in A. rewrite E2 in A.
  destruct (Z.eqb_spec b 1); [congruence|]. apply bind_ok in A. destruct A as [Bs [B A]].
  assert (NE : Bs <> []).
  { destruct (Z.eqb_spec b (-1)); [injection B as <-; discriminate|]. apply bind_ok in B. destruct B as [sl [B B']]. injection B' as <-.
    apply slices_some in B. destruct sl; [congruence|discriminate]. }
  destruct Bs as [|B0 Bs]; [congruence|]. cbn [sg_mini] in A. apply bind_ok in A. destruct A as [s1 [A _]]. unfold sg_mini_step in A.
  apply bind_ok in A. destruct A as [Yh [_ A]]. apply bind_ok in A. destruct A as [f [A _]]. cbn [mc_bmodel bm_joint] in A. unfold mc_batch_joint_feature in A. rewrite HR in A. discriminate A.
Qed.

(** ** parallel batches step away from the minimiser *)
Definition ex12_S : list (list Qc * nat) := [([1], 0%nat); ([1], 0%nat)].
Definition ex12_prm (jobs : Z) (b : option Z) := SGParams (Q2Qc (1 # 8)) 1 0 None jobs 2 1 1 b AvgNone true.
Definition ex12_w : list Qc := [Q2Qc (1 # 4); Q2Qc (-1 # 4)].
Definition ex12_st := SGState ex12_w ex12_w (vzero 2) 0.
Definition ex12_K : Qc := Q2Qc (1 # 8) * ofN 2.
Lemma ex12_exact : batch_exact ex10_bm ex9_task 2 (map fst ex12_S) (map snd ex12_S).
Proof.
  apply (mc_batch_exact ex9_clf).
  - reflexivity.
  - cbn. lia.
  - reflexivity.
  - intros _ [|[|s]] H; [reflexivity|reflexivity|]. cbn in H. exfalso. lia.
  - repeat constructor.
  - reflexivity.
  - repeat constructor.
Qed.
Lemma parallel_away : exists hs st1 st2 p2 hs2,
  hinges ex9_task ex12_w ex12_S hs /\
  (forall w' hs', length w' = 2%nat -> hinges ex9_task w' ex12_S hs' -> primal_value (Q2Qc (1 # 8)) ex12_w hs <= primal_value (Q2Qc (1 # 8)) w' hs') /\
  sg_epoch (ex12_prm 1 (Some (-1)%Z)) ex10_bm ex12_K ex12_S ex12_st = Ok (st1, (-1)%Z) /\ sg_w st1 = ex12_w /\
  sg_epoch (ex12_prm 2 None) ex10_bm ex12_K ex12_S ex12_st = Ok (st2, p2) /\
  hinges ex9_task (sg_w st2) ex12_S hs2 /\ primal_value (Q2Qc (1 # 8)) ex12_w hs < primal_value (Q2Qc (1 # 8)) (sg_w st2) hs2.
Proof.
  set (prm := ex12_prm 1 (Some (-1)%Z)).
  destruct (mini_step_dir ex9_task 2 prm eq_refl ex10_bm 2 ex12_K ex12_S ex12_st ltac:(lia) ltac:(discriminate) eq_refl ex12_exact) as [st1 [g [E1 [E2 [[E3 _] [E4 _]]]]]].
  { split; [discriminate|]. intros _. discriminate. }
  { repeat split. }
  { reflexivity. }
  assert (HF : full_batch prm) by (split; reflexivity).
  assert (EQ := full_epoch prm ex10_bm ex12_S ex12_K ex12_st HF). change (length ex12_S) with 2%nat in EQ. rewrite E1 in EQ. cbn [bind] in EQ.
  assert (W1 : map this (sg_w st1) = [1 # 4; -1 # 4]%Q).
  { assert (V : match sg_mini_step prm ex10_bm 2 ex12_K ex12_S ex12_st with Ok s => map this (sg_w s) = [1 # 4; -1 # 4]%Q | Err _ => False end) by (vm_compute; reflexivity).
    rewrite E1 in V. exact V. }
  assert (MI : forall a b : list Qc, map this a = map this b -> a = b).
  { induction a as [|x a IH]; intros [|y b] H; try discriminate H; [reflexivity|]. cbn [map] in H. injection H as H1 H2. f_equal; [|apply IH; exact H2]. apply Qc_is_canon. rewrite H1. reflexivity. }
  assert (W2 : sg_w st1 = ex12_w) by (apply MI; rewrite W1; vm_compute; reflexivity).
  assert (LG : length g = 2%nat) by apply E4.
  assert (R : rate_at prm ex12_K 0 / (sg_C prm * ofN 2) = 1) by (apply Qc_is_canon; vm_compute; reflexivity).
  cbn [sg_t sg_w ex12_st] in E3. rewrite R in E3.
  assert (G0 : g = vzero 2).
  { apply vec_ext; [rewrite vzero_length; exact LG|]. intros i _. rewrite get1_vzero.
    assert (Z : get1 (sg_w st1) i = get1 ex12_w i) by (rewrite W2; reflexivity). rewrite E3 in Z.
    rewrite get1_vsub, get1_vscale in Z by (rewrite vscale_length, LG; reflexivity).
    set (a := get1 ex12_w i) in *. set (b := get1 g i) in *. replace b with (a - (a - 1 * b)) by ring. rewrite Z. ring. }
  assert (BX := ex12_exact). destruct BX as [BO [OE _]].
  assert (HG := batch_good _ _ _ _ _ BO).
  assert (HH : forall w, length w = 2%nat -> exists hs, hinges ex9_task w ex12_S hs).
  { intros w Hw. destruct (exact_hinges ex9_task 2 _ _ ex10_bm w HG ex12_exact Hw) as [Yh [_ [_ HH]]]. rewrite split_pairs in HH. eauto. }
  destruct (HH ex12_w eq_refl) as [hs Hhs].
  destruct (sg_epoch (ex12_prm 2 None) ex10_bm ex12_K ex12_S ex12_st) as [[st2 p2]|] eqn:EP; [|vm_compute in EP; discriminate EP].
  assert (W3 : map this (sg_w st2) = [1 # 2; -1 # 2]%Q).
  { assert (V : match sg_epoch (ex12_prm 2 None) ex10_bm ex12_K ex12_S ex12_st with Ok s => map this (sg_w (fst s)) = [1 # 2; -1 # 2]%Q | Err _ => False end) by (vm_compute; reflexivity).
    rewrite EP in V. exact V. }
  assert (W4 : sg_w st2 = [Q2Qc (1 # 2); Q2Qc (-1 # 2)]) by (apply MI; rewrite W3; vm_compute; reflexivity).
  destruct (HH (sg_w st2)) as [hs2 Hhs2]; [rewrite W4; reflexivity|].
  assert (SG := strong_weak _ _ _ _ _ _ E4). assert (CE : sg_C prm * ofN 2 / ofN (length ex12_S) = Q2Qc (1 # 8)) by (apply Qc_is_canon; vm_compute; reflexivity).
  rewrite CE, G0 in SG. cbn [sg_w ex12_st] in SG. destruct SG as [_ SG].
  exists hs, st1, st2, p2, hs2. split; [exact Hhs|]. split.
  { intros w' hs' Hw' Hhs'. specialize (SG w' hs hs' Hw' Hhs Hhs'). rewrite dot_vzero_l in SG. replace (primal_value (Q2Qc (1 # 8)) ex12_w hs + 0) with (primal_value (Q2Qc (1 # 8)) ex12_w hs) in SG by ring. exact SG. }
  split; [exact EQ|]. split; [exact W2|]. split; [reflexivity|]. split; [exact Hhs2|].
  (* strictly larger: strong convexity *)
  rewrite CE, G0 in E4. cbn [sg_w ex12_st] in E4. destruct E4 as [_ E4]. specialize (E4 (sg_w st2) hs hs2). rewrite W4 in E4 at 1. specialize (E4 eq_refl Hhs Hhs2).
  rewrite dot_vzero_l in E4. eapply Qclt_le_trans; [|exact E4]. rewrite W4.
  match goal with |- ?a < ?a + 0 + ?b => assert (P : 0 < b) by (vm_compute; reflexivity); set (x := a) in *; set (y := b) in *; clearbody x y; qclra end.
Qed.

Lemma early_stop_weights : exists w lr c t,
  sg_fit (SGParams 1 5 0 (Some 1) 1 1 0 1 None AvgNone true) ex10_bm (fun _ S => S) false [([1], 0%nat)] sg_new =
    Ok (SGLearner t (Some (w, lr, c))) /\ (length c <= 5)%nat /\ hinges ex9_task w [([1], 0%nat)] [1].
Proof.
  assert (V : match sg_fit (SGParams 1 5 0 (Some 1) 1 1 0 1 None AvgNone true) ex10_bm (fun _ S => S) false [([1], 0%nat)] sg_new with
    | Ok (SGLearner t (Some (w, lr, c))) => map this w = [0; 0]%Q /\ length c = 2%nat | _ => False end) by (vm_compute; auto).
  destruct (sg_fit _ _ _ _ _ _) as [[t [[[w lr] c]|]]|]; [|contradiction|contradiction]. destruct V as [V1 V2].
  exists w, lr, c, t. split; [reflexivity|]. split; [lia|].
  assert (MI : forall a b : list Qc, map this a = map this b -> a = b).
  { induction a as [|x a IH]; intros [|y b] H; try discriminate H; [reflexivity|]. cbn [map] in H. injection H as H1 H2. f_equal; [|apply IH; exact H2]. apply Qc_is_canon. rewrite H1. reflexivity. }
  assert (W : w = [0; 0]) by (apply MI; exact V1). subst w. constructor; [|constructor]. cbn [fst snd]. split.
  - exists 1%nat. split; [cbn; lia|]. apply Qc_is_canon. vm_compute. reflexivity.
  - intros [|[|y]] H; [vm_compute; discriminate|vm_compute; discriminate|]. cbn in H. exfalso. lia.
Qed.
