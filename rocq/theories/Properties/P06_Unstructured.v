(** C15, C16, C17: binary and multi-class classifiers. *)
From Coq Require Import ZArith.
From Verif Require Import Model.Unstructured Model.Instances Spec.ClassSpec Spec.TaskSpec Spec.TaskInstances
  Proofs.Arrays Proofs.UnstructuredProofs Proofs.UnstructuredProofs2.

(** ** C15: BinaryClf *)
(** joint_feature accepts exactly the labels -1 and +1, and the score is y * dot(x, w) / 2 *)
Theorem C15_joint_feature :
  forall (x w : list Qc) (y : Z),
    (y = 1%Z \/ y = (-1)%Z ->
       bc_joint_feature x y = Ok (t_feat bc_task x y) /\ length (t_feat bc_task x y) = length x /\
       dot w (t_feat bc_task x y) = ofZ y * dot x w / (1 + 1)) /\
    (y <> 1%Z -> y <> (-1)%Z -> bc_joint_feature x y = Err ValueError).
Proof.
  exact (fun x w y => conj (fun H => conj (bc_joint_ok x y H) (conj (map_length _ _) (bc_score x y w)))
                           (bc_joint_rejects x y)).
Qed.

Theorem C15_inference_exact :
  forall (x w : list Qc), length x = length w ->
    exact_inference (bc_smodel (length w)) bc_task w x.
Proof. exact (fun x w H => bc_exact_inference (length w) x w H eq_refl). Qed.

Theorem C15_loss_augmented_inference_exact :
  forall (x w : list Qc) (y : Z), length x = length w -> y = 1%Z \/ y = (-1)%Z ->
    dot x w <> ofZ y ->
    exact_laug (bc_smodel (length w)) bc_task w x y.
Proof. exact (fun x w y H => bc_exact_laug (length w) x y w H eq_refl). Qed.

(** On the margin, dot(x, w) = y, the answer is 0: find_constraint raises although the true
    hinge loss is 0. *)
Theorem C15_loss_augmented_tie :
  forall (x w : list Qc) (y : Z), length x = length w -> y = 1%Z \/ y = (-1)%Z ->
    dot x w = ofZ y ->
    bc_laug x y w = Ok 0%Z /\
    find_constraint (bc_smodel (length w)) x y w None true = Err ValueError /\
    is_hinge bc_task w x y 0.
Proof. exact (fun x w y H => bc_laug_tie (length w) x y w H eq_refl). Qed.

(** The batch methods used by OneSlackSSVM do not check labels: there the same tie yields the
    violation 1/2 instead of 0. *)
Theorem C15_batch_tie_overestimates :
  forall (x w : list Qc) (y : Z), length x = length w -> y = 1%Z \/ y = (-1)%Z ->
    dot x w = ofZ y ->
    exists f f0,
      bc_batch_laug (Mat 1 (length w) [x]) [y] w = Ok [0%Z] /\
      bc_batch_joint_feature (Mat 1 (length w) [x]) [y] = Ok f /\
      bc_batch_joint_feature (Mat 1 (length w) [x]) [0%Z] = Ok f0 /\
      bc_batch_loss [y] [0%Z] = Ok [1] /\
      1 - dot w (vsub f f0) = / (1 + 1) /\ is_hinge bc_task w x y 0.
Proof. exact (fun x w y H => bc_batch_tie (length w) x y w H eq_refl). Qed.

Theorem C15_batch_agrees :
  forall (X : mat) (Y : list Z) (w : list Qc),
    mat_ok X -> mcols X = length w -> length Y = mrows X ->
    bc_batch_inference X w = mapM (fun x => bc_inference x w) (mdat X) /\
    bc_batch_laug X Y w = mapM (fun p => bc_laug (fst p) (snd p) w) (combine (mdat X) Y).
Proof. exact bc_batch_agrees. Qed.

Theorem C15_batch_joint_feature_is_sum :
  forall (X : mat) (Y : list Z),
    mat_ok X -> length Y = mrows X -> Forall (fun y => y = 1%Z \/ y = (-1)%Z) Y ->
    exists fs, mapM (fun p => bc_joint_feature (fst p) (snd p)) (combine (mdat X) Y) = Ok fs /\
      bc_batch_joint_feature X Y = Ok (vsum (mcols X) fs).
Proof. exact bc_batch_joint. Qed.

(** ** C16: MultiClassClf *)
(** x is copied into the block of class y; the score is the inner product with that block *)
Theorem C16_joint_feature :
  forall (m : mc_clf) (x w : list Qc) (y : nat),
    mc_rescale m = false -> (y < mc_states m)%nat -> length x = mc_features m -> length w = mc_size m ->
    mc_joint_feature m x y None = Ok (class_feature 1 (mc_states m) (mc_features m) x y) /\
    length (class_feature 1 (mc_states m) (mc_features m) x y) = mc_size m /\
    dot w (class_feature 1 (mc_states m) (mc_features m) x y) = class_score (mc_features m) w x y.
Proof. exact mc_joint_feature_score. Qed.
(** Other classes, and inputs with neither n_features numbers nor a single one, are refused. *)
Theorem C16_joint_feature_refused :
  forall m x y y_true,
    ((mc_states m <= y)%nat -> mc_joint_feature m x y y_true = Err IndexError) /\
    ((y < mc_states m)%nat -> length x <> mc_features m -> length x <> 1%nat -> mc_joint_feature m x y y_true = Err ValueError).
Proof.
  intros m x y y_true. unfold mc_joint_feature, bcast_row. split.
  - intro H. destruct (Nat.ltb_spec y (mc_states m)); [lia|reflexivity].
  - intros H1 H2 H3. destruct (Nat.ltb_spec y (mc_states m)); [|lia]. destruct (Nat.eqb_spec (length x) (mc_features m)); [contradiction|].
    destruct (Nat.eqb_spec (length x) 1); [contradiction|reflexivity].
Qed.
Example C16_joint_feature_refused_met : mc_joint_feature (MC 2 3 [1; 1] true false) [1; 1] 0 None = Err ValueError.
Proof. apply (proj2 (C16_joint_feature_refused (MC 2 3 [1; 1] true false) [1; 1] 0%nat None)); cbn; lia. Qed.

(** inference: the smallest class of maximal score; return_energy=True adds that score *)
Theorem C16_inference_exact :
  forall (m : mc_clf) (x w : list Qc),
    (0 < mc_states m)%nat -> length w = mc_size m -> length x = mc_features m ->
    exists s, mc_inference m x w = Ok s /\
      mc_inference_energy m x w = Ok (s, class_score (mc_features m) w x s) /\
      first_argmax (mc_states m) (class_score (mc_features m) w x) s.
Proof. exact mc_inference_exact. Qed.

(** loss-augmented inference: the same for score + price of the true class (1 if rescale_C) *)
Theorem C16_loss_augmented_inference_exact :
  forall (m : mc_clf) (x : list Qc) (y : nat) (w : list Qc) (c : Qc),
    (0 < mc_states m)%nat -> length w = mc_size m -> length x = mc_features m ->
    (if mc_rescale m then Ok 1 else index (mc_cw m) y) = Ok c ->
    exists s,
      mc_laug m x y w = Ok s /\
      mc_laug_energy m x y w =
        Ok (s, class_score (mc_features m) w x s + (if (s =? y)%nat then 0 else c)) /\
      first_argmax (mc_states m)
        (fun t => class_score (mc_features m) w x t + (if (t =? y)%nat then 0 else c)) s.
Proof. exact mc_laug_exact. Qed.

(** MultiClassClf solves the task a learner assumes *)
Theorem C16_implements_task :
  forall (m : mc_clf) (x : list Qc) (y : nat) (w : list Qc),
    mc_rescale m = false -> length x = mc_features m -> (y < mc_states m)%nat ->
    length (mc_cw m) = mc_states m -> length w = mc_size m ->
    let T := mc_task (mc_states m) (mc_features m) (get1 (mc_cw m)) in
    implements (mc_smodel m) T (mc_size m) x y /\
    exact_laug (mc_smodel m) T w x y /\ exact_inference (mc_smodel m) T w x.
Proof.
  exact (fun m x y w Hr Hx Hy Hc Hw => conj (mc_implements m x y Hr Hx Hy Hc)
    (conj (mc_exact_laug m x y w Hr Hx Hy Hc Hw)
          (mc_exact_inference m _ x w Hx (Nat.le_lt_trans _ _ _ (Nat.le_0_l y) Hy) Hw))).
Qed.

(** batch = one by one, exceptions included *)
Theorem C16_batch_inference_agrees :
  forall (m : mc_clf) (X : mat) (w : list Qc), mat_ok X -> (0 < mrows X)%nat ->
    mc_batch_inference m X w = mapM (fun x => mc_inference m x w) (mdat X).
Proof. exact mc_batch_inference_agrees. Qed.

Theorem C16_batch_loss_augmented_inference_agrees :
  forall (m : mc_clf) (X : mat) (Y : list nat) (w : list Qc),
    mat_ok X -> mcols X = mc_features m -> length w = mc_size m ->
    length Y = mrows X -> length (mc_cw m) = mc_states m ->
    Forall (fun y => (y < mc_states m)%nat) Y ->
    (mc_uniform m = true -> forall s, (s < mc_states m)%nat -> get1 (mc_cw m) s = 1) ->
    (0 < mc_states m)%nat ->
    mc_batch_laug m X Y w = mapM (fun p => mc_laug m (fst p) (snd p) w) (combine (mdat X) Y).
Proof. exact mc_batch_laug_agrees. Qed.

Theorem C16_batch_joint_feature_is_sum :
  forall (m : mc_clf) (X : mat) (Y : list nat),
    mc_rescale m = false -> mat_ok X -> mcols X = mc_features m ->
    length Y = mrows X -> Forall (fun y => (y < mc_states m)%nat) Y ->
    exists fs, mapM (fun p => mc_joint_feature m (fst p) (snd p) None) (combine (mdat X) Y) = Ok fs /\
      mc_batch_joint_feature m X Y None = Ok (vsum (mc_size m) fs).
Proof. exact mc_batch_joint_plain. Qed.

Theorem C16_batch_loss_agrees :
  forall (m : mc_clf) (Y Y' : list nat), length Y = length Y' ->
    mc_batch_loss m Y Y' = mapM (fun p => mc_loss m (fst p) (snd p)) (combine Y Y').
Proof. exact mc_batch_loss_agrees. Qed.

(** A label outside the classes: joint_feature raises IndexError, batch_joint_feature writes
    outside the array (boundscheck=False). *)
Theorem C16_batch_unknown_class :
  forall (m : mc_clf) (x : list Qc) (y : nat),
    mc_rescale m = false -> length x = mc_features m -> (mc_states m <= y)%nat ->
    mc_joint_feature m x y None = Err IndexError /\
    mc_batch_joint_feature m (Mat 1 (mc_features m) [x]) [y] None = Err OutOfBounds.
Proof. exact mc_batch_unknown_class. Qed.

(** ** C17: rescale_C *)
(** The constraint of a sample is class_weight[y] times the unweighted constraint: same
    labelling, scaled difference vector, slack and loss; both slacks are hinge losses. *)
Theorem C17_constraint_is_rescaled :
  forall (m : mc_clf) (x : list Qc) (y : nat) (w : list Qc),
    mc_rescale m = true -> length x = mc_features m -> (y < mc_states m)%nat ->
    length (mc_cw m) = mc_states m -> length w = mc_size m -> 0 <= get1 (mc_cw m) y ->
    exists yh delta s,
      find_constraint (mc_smodel (MC (mc_states m) (mc_features m) (repeat 1 (mc_states m)) true false))
        x y w None true = Ok (yh, delta, s, if (y =? yh)%nat then 0 else 1) /\
      is_hinge (mc_task (mc_states m) (mc_features m) (fun _ => 1)) w x y s /\
      find_constraint (mc_smodel m) x y w None true =
        Ok (yh, vscale (get1 (mc_cw m) y) delta, get1 (mc_cw m) y * s,
            if (y =? yh)%nat then 0 else get1 (mc_cw m) y) /\
      is_hinge (mc_rescaled_task (mc_states m) (mc_features m) (get1 (mc_cw m)) y) w x y
        (get1 (mc_cw m) y * s).
Proof. exact mc_rescale_constraint. Qed.

(** The objective is the one with a separate C * class_weight[y] per sample. *)
Theorem C17_objective_rescales_C :
  forall (m : mc_clf) (w : list Qc) (Xs : list (list Qc)) (Ys : list nat) (C : Qc) (v : slack_variant),
    mc_rescale m = true -> length (mc_cw m) = mc_states m -> length w = mc_size m ->
    length Xs = length Ys -> Xs <> [] ->
    Forall (fun x => length x = mc_features m) Xs -> Forall (fun y => (y < mc_states m)%nat) Ys ->
    (forall s, (s < mc_states m)%nat -> 0 <= get1 (mc_cw m) s) ->
    exists hs,
      Forall2 (fun p h => is_hinge (mc_task (mc_states m) (mc_features m) (fun _ => 1)) w (fst p) (snd p) h)
              (combine Xs Ys) hs /\
      objective_primal (mc_smodel m) w Xs Ys C v =
        Ok (lsum (zipw (fun y h => C * get1 (mc_cw m) y * h) Ys hs) + normsq w / (1 + 1)).
Proof. exact mc_rescale_objective. Qed.

Theorem C17_batch_joint_feature_is_sum :
  forall (m : mc_clf) (X : mat) (Y Yt : list nat),
    mc_rescale m = true -> mat_ok X -> mcols X = mc_features m ->
    length Y = mrows X -> length Yt = length Y ->
    Forall (fun y => (y < mc_states m)%nat) Y -> Forall (fun t => (t < length (mc_cw m))%nat) Yt ->
    exists fs,
      mapM (fun p => mc_joint_feature m (fst (fst p)) (snd (fst p)) (Some (snd p)))
           (combine (combine (mdat X) Y) Yt) = Ok fs /\
      mc_batch_joint_feature m X Y (Some Yt) = Ok (vsum (mc_size m) fs).
Proof. exact mc_batch_joint_rescale. Qed.

Theorem C17_y_true_required :
  forall (m : mc_clf) (x : list Qc) (y : nat) (X : mat) (Y : list nat),
    mc_rescale m = true -> length x = mc_features m -> (y < mc_states m)%nat ->
    mc_joint_feature m x y None = Err ValueError /\ mc_batch_joint_feature m X Y None = Err ValueError.
Proof. exact mc_y_true_required. Qed.

(** ** The hypotheses are met *)
Definition ex6_m := MC 3 2 [ofN 1; ofN 2; ofN 3] false false.
Definition ex6_r := MC 3 2 [ofN 1; ofN 2; ofN 3] false true.
Definition ex6_w := [ofN 1; 0; 0; ofN 1; ofN 1; ofN 1].
Definition ex6_x := [ofN 2; ofN 1].
Definition ex6_X := Mat 2 2 [[ofN 2; ofN 1]; [ofN 1; ofN 3]].

Example C15_value :
  bc_inference ex6_x [ofN 1; - ofN 2] = Ok 1%Z /\
  bc_laug ex6_x 1%Z [ofN 1; - ofN 2] = Ok (-1)%Z /\
  bc_laug ex6_x 1%Z [ofN 1; - ofN 1] = Ok 0%Z /\ dot ex6_x [ofN 1; - ofN 1] = ofZ 1.
Proof. vm_compute. repeat split; reflexivity. Qed.
Example C15_batch_hypotheses_met :
  mat_ok ex6_X /\ mcols ex6_X = length ex6_x /\ length [1%Z; (-1)%Z] = mrows ex6_X /\
  bc_batch_inference ex6_X [ofN 1; - ofN 1] = Ok [1%Z; (-1)%Z].
Proof. split. { apply mat_okb_ok. reflexivity. } vm_compute. repeat split; reflexivity. Qed.

Example C16_value :
  length ex6_w = mc_size ex6_m /\ length (mc_cw ex6_m) = mc_states ex6_m /\
  mc_inference ex6_m ex6_x ex6_w = Ok 2%nat /\
  mc_laug ex6_m ex6_x 2 ex6_w = Ok 0%nat /\
  mc_batch_inference ex6_m ex6_X ex6_w = Ok [2; 2]%nat /\
  mc_batch_laug ex6_m ex6_X [2; 1]%nat ex6_w = Ok [0; 2]%nat /\
  (match mc_batch_loss ex6_m [2; 1]%nat [0; 1]%nat with Ok l => map this l | Err _ => [] end) = [3#1; 0#1]%Q /\
  (match mc_batch_joint_feature ex6_m ex6_X [2; 1]%nat None with Ok l => map this l | Err _ => [] end) =
    [0#1; 0#1; 1#1; 3#1; 2#1; 1#1]%Q.
Proof. vm_compute. repeat split; reflexivity. Qed.

Example C17_value :
  0 <= get1 (mc_cw ex6_r) 1 /\
  (match find_constraint (mc_smodel ex6_r) ex6_x 1%nat ex6_w None true with
   | Ok (yh, d, s, l) => (yh, map this d, this s, this l) | Err _ => (O, [], 0#1, 0#1) end)%Q =
    (2%nat, [0#1; 0#1; 4#1; 2#1; (-4)#1; (-2)#1], 6#1, 2#1)%Q /\
  (match mc_batch_joint_feature ex6_r ex6_X [2; 1]%nat (Some [1; 2]%nat) with Ok l => map this l | Err _ => [] end) =
    [0#1; 0#1; 3#1; 9#1; 4#1; 2#1]%Q.
Proof. split. { discriminate. } vm_compute. repeat split; reflexivity. Qed.

Print Assumptions C15_joint_feature.
Print Assumptions C15_inference_exact.
Print Assumptions C15_loss_augmented_inference_exact.
Print Assumptions C15_loss_augmented_tie.
Print Assumptions C15_batch_tie_overestimates.
Print Assumptions C15_batch_agrees.
Print Assumptions C15_batch_joint_feature_is_sum.
Print Assumptions C16_joint_feature.
Print Assumptions C16_inference_exact.
Print Assumptions C16_loss_augmented_inference_exact.
Print Assumptions C16_implements_task.
Print Assumptions C16_batch_inference_agrees.
Print Assumptions C16_batch_loss_augmented_inference_agrees.
Print Assumptions C16_batch_joint_feature_is_sum.
Print Assumptions C16_batch_loss_agrees.
Print Assumptions C16_batch_unknown_class.
Print Assumptions C17_constraint_is_rescaled.
Print Assumptions C17_objective_rescales_C.
Print Assumptions C17_batch_joint_feature_is_sum.
Print Assumptions C17_y_true_required.
Print Assumptions C16_joint_feature_refused.
