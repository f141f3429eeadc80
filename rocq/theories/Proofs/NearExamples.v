(** Inexact inference: an oracle that gives up early, and what it does to training. *)
From Coq Require Import ZArith.
From Verif Require Import Model.NSlack Model.OneSlack Model.FrankWolfe Model.Instances Spec.FrankWolfeSpec Spec.TaskInstances Spec.NearSpec Proofs.Arrays Proofs.LossProofs Proofs.LearnerProofs
  Proofs.OneSlackProofs Proofs.OneSlackProofs2 Proofs.NSlackExamples Proofs.OneSlackExamples Proofs.FrankWolfeProofs4 Proofs.FWRate6 Proofs.Near Spec.InferenceSpec.

(** settle for the true output when nothing violates its margin by more than [eps] *)
Definition lazy {X Y} (eps : Qc) (T : task X Y) (m : smodel X Y) : smodel X Y :=
  SModel (sm_size m) (sm_rescale m) (sm_joint m) (sm_inference m)
    (fun x y w => let! yh := sm_laug m x y w in if Qcleb (margin T w x y yh) eps then Ok y else Ok yh)
    (sm_tuple m) (sm_loss m) (sm_closs m).
Lemma margin_self {X Y} (m : smodel X Y) (T : task X Y) d x y w : implements m T d x y -> margin T w x y y = 0.
Proof. intros [_ [H _]]. unfold margin. rewrite H. ring. Qed.
Lemma lazy_near {X Y} eps (T : task X Y) (m : smodel X Y) d S : 0 <= eps -> oracle_exact m T d S -> oracle_near eps (lazy eps T m) T d S.
Proof.
  intros HE H p Hp. destruct (H p Hp) as [A B]. split; [exact A|]. intros w Hw. destruct (B w Hw) as [yh [E [L M]]].
  assert (M' : forall y', t_label T (fst p) y' -> margin T w (fst p) (snd p) y' <= margin T w (fst p) (snd p) yh).
  { intros y' Hy'. specialize (M y' Hy'). unfold margin. qclra. }
  cbn [lazy sm_laug]. rewrite E. cbn [bind]. destruct (Qcleb_spec (margin T w (fst p) (snd p) yh) eps) as [Z|Z].
  - exists (snd p). split; auto. split; [apply A|]. intros y' Hy'. rewrite (margin_self m T d) by exact A. specialize (M' y' Hy'). qclra.
  - exists yh. split; auto. split; auto. intros y' Hy'. specialize (M' y' Hy'). qclra.
Qed.
Lemma base_batch_near {X Y} eps (T : task X Y) d (Xs : list X) (Ys : list Y) (m : smodel X Y) : length Xs = length Ys -> sm_size m = d ->
  oracle_near eps m T d (combine Xs Ys) -> batch_near eps (base_bmodel m) T d Xs Ys.
Proof.
  intros HL Hd HO. split; [|split].
  - apply base_batch_ok; auto. exact (near_is_ok _ _ _ _ _ HO).
  - exact HO.
  - intros w Hw. cbn [base_bmodel bm_laug]. clear - HL HO Hw. revert Ys HL HO. induction Xs as [|x xs IH]; intros [|y ys] HL HO; try discriminate.
    + exists []. split; [reflexivity|constructor].
    + destruct (IH ys ltac:(auto)) as [Yh [E1 E2]]. { intros p Hp. apply HO. right. auto. }
      destruct (HO (x, y) (or_introl eq_refl)) as [_ H]. destruct (H w Hw) as [yh [E3 E4]]. exists (yh :: Yh). cbn [combine mapM fst snd] in *.
      rewrite E3. cbn [bind]. rewrite E1. cbn [bind]. split; [reflexivity|]. constructor; auto.
Qed.

Definition half : Qc := 1 / (1 + 1).
Definition ex49_m (eps : Qc) := lazy eps ex9_task ex9_m.
Definition ex49_bm (eps : Qc) := base_bmodel (ex49_m eps).
Definition ex49_fw := FWParams 1 5 (Q2Qc (1 # 1000)) false false 1 false.
Lemma ex49_near eps : 0 <= eps -> oracle_near eps (ex49_m eps) ex9_task 2 (combine ex9_X ex9_Y) /\ batch_near eps (ex49_bm eps) ex9_task 2 ex9_X ex9_Y /\
  fw_usable ex9_task 2 ex9_X ex9_Y (ex49_bm eps).
Proof.
  intros HE. assert (A : oracle_near eps (ex49_m eps) ex9_task 2 (combine ex9_X ex9_Y)) by (apply lazy_near; [exact HE|apply ex9_ok]).
  assert (B : batch_near eps (ex49_bm eps) ex9_task 2 ex9_X ex9_Y) by (apply base_batch_near; [reflexivity|reflexivity|exact A]).
  split; [exact A|]. split; [exact B|]. split; [apply B|]. split; [reflexivity|]. reflexivity.
Qed.
Lemma half_pos : 0 <= half. Proof. vm_compute. discriminate. Qed.
Lemma ex49_not_exact : ~ oracle_exact (ex49_m half) ex9_task 2 (combine ex9_X ex9_Y).
Proof.
  intros H. destruct (H ([1], 0%nat) (or_introl eq_refl)) as [_ B]. destruct (B [half * half; - (half * half)] eq_refl) as [yh [E [L M]]].
  specialize (M 1%nat ltac:(cbn; lia)). cbn in L. destruct yh as [|[|yh]]; [| |exfalso; lia].
  - revert M. vm_compute. auto.
  - vm_compute in E. discriminate E.
Qed.
(** the gap reported is zero, the weights are far from optimal *)
Lemma ex49_fw_run : exists w l p c, fw_fit ex49_fw (ex49_bm 1) ex9_X ex9_Y ex11_sched None = Ok (w, l, p, c) /\ w = [0; 0] /\ p = [0; 0] /\ c = [0; 0].
Proof.
  assert (K : match fw_fit ex49_fw (ex49_bm 1) ex9_X ex9_Y ex11_sched None with Ok (w, _, p, c) => map this w = map this [0; 0] /\ map this p = map this [0; 0] /\ map this c = map this [0; 0] | Err _ => False end) by (vm_compute; auto).
  destruct (fw_fit ex49_fw (ex49_bm 1) ex9_X ex9_Y ex11_sched None) as [[[[w l] p] c]|]; [|contradiction]. destruct K as [K1 [K2 K3]]. apply map_this in K1, K2, K3.
  exists w, l, p, c. auto.
Qed.
Lemma ex49_half_hinge : hinges ex9_task [half; - half] (combine ex9_X ex9_Y) [0].
Proof.
  constructor; [|constructor]. split.
  - exists 1%nat. split; [cbn; lia|]. apply Qc_is_canon. vm_compute. reflexivity.
  - intros y' Hy. cbn in Hy. destruct y' as [|[|y']]; [| |exfalso; lia]; vm_compute; discriminate.
Qed.

(** predicts class 1 unless class 0 is ahead by more than [eps] *)
Definition ex49_infer (eps : Qc) : smodel (list Qc) nat :=
  SModel 2 false (sm_joint ex9_m) (fun x w => Ok (if Qcltb (dot w (t_feat ex9_task x 1%nat) + eps) (dot w (t_feat ex9_task x 0%nat)) then 0%nat else 1%nat))
    (sm_laug ex9_m) (sm_tuple ex9_m) (sm_loss ex9_m) (sm_closs ex9_m).
Definition three : Qc := 1 + 1 + 1.
Definition ex49_pc := PCParams 10 false 0 1 NoAverage.
Definition ex49_mloss (y : nat) : res Qc := Ok 1.

Lemma ex49_infers eps : 0 <= eps -> infers_near eps (ex49_infer eps) ex9_task 2 (combine ex9_X ex9_Y).
Proof.
  intros HE p w [<-|[]] Hw. cbn [fst ex49_infer sm_inference]. set (a := dot w (t_feat ex9_task [1] 0%nat)). set (b := dot w (t_feat ex9_task [1] 1%nat)).
  assert (K : forall y', (y' < 2)%nat -> dot w (t_feat ex9_task [1] y') = if (y' =? 0)%nat then a else b).
  { intros [|[|y']] Hy; [reflexivity|reflexivity|lia]. }
  clearbody a b. destruct (Qcltb_spec (b + eps) a) as [Z|Z].
  - exists 0%nat. split; [reflexivity|]. split; [cbn; lia|]. intros y' Hy. change (y' < 2)%nat in Hy. rewrite (K y' Hy), (K 0%nat) by lia. cbn [Nat.eqb]. destruct (y' =? 0)%nat; qclra.
  - exists 1%nat. split; [reflexivity|]. split; [cbn; lia|]. intros y' Hy. change (y' < 2)%nat in Hy. rewrite (K y' Hy), (K 1%nat) by lia. cbn [Nat.eqb]. destruct (y' =? 0)%nat; qclra.
Qed.
Lemma ex49_computes eps : computes (ex49_infer eps) ex9_task 2 (combine ex9_X ex9_Y).
Proof.
  intros p [<-|[]]. split; [cbn; lia|]. split; [reflexivity|]. intros [|[|y']] L; [| |cbn in L; lia]; (split; [reflexivity|]; split; [vm_compute; discriminate|]; split; reflexivity).
Qed.
Lemma ex49_separates : Forall (separates ex9_task [1; - (1)] (1 + 1)) (combine ex9_X ex9_Y) /\ Forall (wrong_within ex9_task (1 + 1)) (combine ex9_X ex9_Y).
Proof.
  split; (constructor; [|constructor]); intros [|[|y']] L Z; try (cbn in L; lia); try (exfalso; apply Z; reflexivity); vm_compute; discriminate.
Qed.
Definition ex49_Es : list (list Qc * list (visit (list Qc) nat)) :=
  [([0; 0], [Visit ([1], 0%nat) 1%nat [1; - (1)]]); ([1; - (1)], [Visit ([1], 0%nat) 1%nat [1 + 1; - (1 + 1)]]); ([1 + 1; - (1 + 1)], [Visit ([1], 0%nat) 0%nat [1 + 1; - (1 + 1)]])].
Lemma ex49_epochs : epochs ex49_pc (ex49_infer three) ex9_task (combine ex9_X ex9_Y) 0 [0; 0] ex49_Es /\ all_mistakes ex9_task ex49_Es = 2%nat.
Proof.
  split; [|vm_compute; reflexivity].
  assert (P : forall w w' y, sm_inference (ex49_infer three) [1] w = Ok y ->
     (t_loss ex9_task 0%nat y = 0 -> w' = w) -> (t_loss ex9_task 0%nat y <> 0 -> w' = vadd w (vscale 1 (vsub (t_feat ex9_task [1] 0%nat) (t_feat ex9_task [1] y)))) ->
     presents (ex49_infer three) ex9_task false 1 w w [Visit ([1], 0%nat) y w']).
  { intros w w' y A B C. split; [exact A|]. split; [exact B|]. split; [exact C|exact I]. }
  assert (R : forall it, pc_lr ex49_pc it = 1) by reflexivity.
  cbn [ex49_Es epochs fst snd map v_sample]. rewrite !R.
  split; [reflexivity|]. split; [reflexivity|]. split; [apply P; [vm_compute; reflexivity|intros Z; discriminate Z|intros _; apply map_this; vm_compute; reflexivity]|].
  split; [reflexivity|]. split; [reflexivity|]. split; [apply P; [vm_compute; reflexivity|intros Z; discriminate Z|intros _; apply map_this; vm_compute; reflexivity]|].
  split; [reflexivity|]. split; [reflexivity|]. split; [apply P; [vm_compute; reflexivity|intros _; reflexivity|intros Z; exfalso; apply Z; reflexivity]|]. exact I.
Qed.
(** one node with two states: a minimiser of the integer energy *)
Definition ex49_int (edges : list (nat * nat)) (Ui : list (list Z)) (Pi : list (list (list Z))) : res (list nat) :=
  Ok [if (zget Ui 0 1 <? zget Ui 0 0)%Z then 1%nat else 0%nat].
Lemma ofZ_le a b : (a <= b)%Z -> ofZ a <= ofZ b.
Proof. intros H. unfold ofZ, Qcle, Q2Qc. cbn [this]. rewrite !Qred_correct. unfold Qle. cbn. lia. Qed.
Lemma ex49_int_minimises Ui Pi : exists yh, ex49_int [] Ui Pi = Ok yh /\ int_minimiser 1 2 [] Ui Pi yh.
Proof.
  eexists. split; [reflexivity|]. assert (V : forall s, int_energy 1 [] Ui Pi [s] = ofZ (zget Ui 0 s)).
  { intros s. unfold int_energy, score, lab, sumn. cbn [length nth seq map lsum fst snd]. ring. }
  split; [split; [reflexivity|constructor; [destruct (_ <? _)%Z; lia|constructor]]|].
  intros y' [L F]. destruct y' as [|s [|? ?]]; try discriminate. inversion F as [|? ? S1 _]; subst. rewrite !V. apply ofZ_le.
  destruct (Z.ltb_spec (zget Ui 0 1) (zget Ui 0 0)); destruct s as [|[|s]]; lia.
Qed.
