(** C51, C59: prediction, score and the training-loss curve of BaseSSVM (learners/ssvm.py). *)
From Coq Require Import ZArith Permutation.
From Verif Require Import Spec.PredictSpec Proofs.PredictProofs Proofs.PredictInstances Proofs.Arrays Proofs.LossProofs Proofs.OneSlackCache Proofs.QPProofs.

(** ** predict without constraints *)
(** the answers are the inference results in the order of the samples, whatever n_jobs is and in
    whatever order the workers finish *)
Theorem C51_predict_in_order : forall {X Y K} (truthy : K -> bool) (m : pmodel X Y K) n_jobs order w Xs c,
  schedule n_jobs order (length Xs) -> no_constraints c -> batch_agrees m w Xs ->
  forall Ys, predict truthy m n_jobs order w Xs c = Ok Ys <-> Forall2 (fun x y => pm_inf m x w = Ok y) Xs Ys.
Proof. intros X Y K truthy m nj order w Xs c [N P]. exact (predict_plain truthy m nj order w Xs c N P). Qed.
Theorem C51_n_jobs_irrelevant : forall {X Y K} (truthy : K -> bool) (m : pmodel X Y K) n1 o1 n2 o2 w Xs c,
  schedule n1 o1 (length Xs) -> schedule n2 o2 (length Xs) -> no_constraints c -> batch_agrees m w Xs ->
  forall Ys, predict truthy m n1 o1 w Xs c = Ok Ys <-> predict truthy m n2 o2 w Xs c = Ok Ys.
Proof.
  intros X Y K truthy m n1 o1 n2 o2 w Xs c S1 S2 NC BA Ys.
  rewrite (C51_predict_in_order truthy m n1 o1 w Xs c S1 NC BA Ys). symmetry. apply C51_predict_in_order; assumption.
Qed.
(** an exception of predict is the exception of one of the samples *)
Theorem C51_failure : forall {X Y K} (truthy : K -> bool) (m : pmodel X Y K) n_jobs order w Xs c e,
  schedule n_jobs order (length Xs) -> no_constraints c -> batch_agrees m w Xs ->
  predict truthy m n_jobs order w Xs c = Err e -> exists x, In x Xs /\ pm_inf m x w = Err e.
Proof. intros X Y K truthy m nj order w Xs c e [N P]. exact (predict_plain_err truthy m nj order w Xs c e N P). Qed.
(** joblib refuses n_jobs = 0 *)
Theorem C51_n_jobs_zero : forall {X Y K} (truthy : K -> bool) (m : pmodel X Y K) order w Xs c,
  predict truthy m 0 order w Xs c = Err ValueError.
Proof. exact @predict_zero. Qed.

(** ** the library's models *)
Theorem C51_multiclass : forall {K} (truthy : K -> bool) (m : mc_clf) n_jobs order w Xs Ys,
  schedule n_jobs order (length Xs) -> Xs <> [] -> Forall (fun x => length x = mc_features m) Xs ->
  (predict truthy (mc_pmodel m) n_jobs order w Xs None = Ok Ys <-> Forall2 (fun x y => mc_inference m x w = Ok y) Xs Ys).
Proof.
  intros K truthy m nj order w Xs Ys S N H. apply (C51_predict_in_order truthy (mc_pmodel m) nj order w Xs None S); [left; reflexivity|].
  apply mc_pmodel_agrees; assumption.
Qed.
Theorem C51_binary : forall {K} (truthy : K -> bool) n_jobs order w Xs Ys,
  schedule n_jobs order (length Xs) -> Forall (fun x => length x = length w) Xs ->
  (predict truthy (bc_pmodel (length w)) n_jobs order w Xs None = Ok Ys <-> Forall2 (fun x y => bc_inference x w = Ok y) Xs Ys).
Proof.
  intros K truthy nj order w Xs Ys S H. apply (C51_predict_in_order truthy (bc_pmodel (length w)) nj order w Xs None S); [left; reflexivity|].
  apply bc_pmodel_agrees; assumption.
Qed.
(** every model that inherits batch_inference: GraphCRF, ChainCRF, ... *)
Theorem C51_inherited_batch : forall {X Y K} (truthy : K -> bool) inf inf_c loss ml n_jobs order w (Xs : list X) (Ys : list Y),
  schedule n_jobs order (length Xs) ->
  (predict truthy (with_defaults (K := K) inf inf_c loss ml) n_jobs order w Xs None = Ok Ys <-> Forall2 (fun x y => inf x w = Ok y) Xs Ys).
Proof.
  intros X Y K truthy inf inf_c lo ml nj order w Xs Ys S.
  apply (C51_predict_in_order truthy (with_defaults inf inf_c lo ml) nj order w Xs None S); [left; reflexivity|]. apply with_defaults_agrees.
Qed.

(** ** constraints *)
(** each sample is paired with its constraint *)
Theorem C51_constraints : forall {X Y K} (truthy : K -> bool) (m : pmodel X Y K) n_jobs order w Xs cs,
  schedule n_jobs order (Nat.min (length Xs) (length cs)) -> cs <> [] -> batch_c_agrees m w Xs cs ->
  (forall x k, In k cs -> truthy k = false -> pm_inf_c m x w k = pm_inf m x w) ->
  forall Ys, predict truthy m n_jobs order w Xs (Some cs) = Ok Ys <->
             Forall2 (fun p y => pm_inf_c m (fst p) w (snd p) = Ok y) (combine Xs cs) Ys.
Proof.
  intros X Y K truthy m nj order w Xs cs [N P]. rewrite <- combine_length in P. exact (predict_constraints truthy m nj order w Xs cs N P).
Qed.
(** a list of constraints shorter than X silently drops the remaining samples *)
Theorem C51_surplus_dropped : forall {X Y K} (truthy : K -> bool) (m : pmodel X Y K) n_jobs order w Xs cs Ys,
  schedule n_jobs order (Nat.min (length Xs) (length cs)) -> cs <> [] -> batch_c_agrees m w Xs cs ->
  (forall x k, In k cs -> truthy k = false -> pm_inf_c m x w k = pm_inf m x w) ->
  predict truthy m n_jobs order w Xs (Some cs) = Ok Ys -> length Ys = Nat.min (length Xs) (length cs).
Proof.
  intros X Y K truthy m nj order w Xs cs Ys S N BA T H. apply (proj1 (C51_constraints truthy m nj order w Xs cs S N BA T Ys)) in H.
  rewrite <- combine_length. symmetry. exact (Forall2_len _ _ _ H).
Qed.
Theorem C51_inherited_batch_constraints : forall {X Y K} (truthy : K -> bool) inf inf_c loss ml n_jobs order w (Xs : list X) (cs : list K) (Ys : list Y),
  schedule n_jobs order (Nat.min (length Xs) (length cs)) -> cs <> [] ->
  (forall x k, In k cs -> truthy k = false -> inf_c x w k = inf x w) ->
  (predict truthy (with_defaults inf inf_c loss ml) n_jobs order w Xs (Some cs) = Ok Ys <->
   Forall2 (fun p y => inf_c (fst p) w (snd p) = Ok y) (combine Xs cs) Ys).
Proof.
  intros X Y K truthy inf inf_c lo ml nj order w Xs cs Ys S N T.
  apply (C51_constraints truthy (with_defaults inf inf_c lo ml) nj order w Xs cs S N); [apply with_defaults_agrees_c; exact N|exact T].
Qed.
(** for models without the keyword, n_jobs does matter: with empty per-sample constraints one
    process raises TypeError, several answer *)
Theorem C51_constraints_n_jobs_refuted : forall {K} (truthy : K -> bool) (m : mc_clf) order w Xs cs Ys,
  cs <> [] -> length cs = length Xs -> Forall (fun k => truthy k = false) cs -> Permutation order (seq 0 (length Xs)) ->
  Forall2 (fun x y => mc_inference m x w = Ok y) Xs Ys ->
  predict truthy (mc_pmodel m) 1 order w Xs (Some cs) = Err TypeError /\
  predict truthy (mc_pmodel m) 2 order w Xs (Some cs) = Ok Ys.
Proof.
  intros K truthy m order w Xs cs Ys N L T P F. destruct cs as [|k cs]; [contradiction|]. split; [reflexivity|].
  unfold predict. change (negb (2 =? 1)%Z) with true. cbv iota. apply parallel_ok; [discriminate|rewrite combine_length, L, Nat.min_id; exact P|].
  apply Forall2_mapM. clear N P. revert Xs Ys L F T. generalize (k :: cs). intro l. induction l as [|a l IH]; intros [|x Xs] Ys L F T; try discriminate L.
  - inversion F; subst. constructor.
  - inversion F as [|x' y Xs' Ys' H1 H2]; subst. inversion T as [|a' l' T1 T2]; subst. cbn [combine]. constructor; [|apply IH; [simpl in L; lia|exact H2|exact T2]].
    unfold inference_with. cbn [fst snd]. rewrite T1. exact H1.
Qed.

(** ** score *)
(** one minus the ratio of the summed losses to the summed largest losses, for every n_jobs *)
Theorem C51_score : forall {X Y K} (truthy : K -> bool) (m : pmodel X Y K) n_jobs order w Xs Ys P losses mls,
  schedule n_jobs order (length Xs) -> batch_agrees m w Xs ->
  Forall2 (fun x y => pm_inf m x w = Ok y) Xs P ->
  (match pm_batch_loss m with Some f => f Ys P = mapM (fun p => pm_loss m (fst p) (snd p)) (combine Ys P) | None => True end) ->
  Forall2 (fun p l => pm_loss m (fst p) (snd p) = Ok l) (combine Ys P) losses ->
  Forall2 (fun y l => pm_max_loss m y = Ok l) Ys mls ->
  pscore truthy m n_jobs order w Xs Ys = if Qceqb (lsum mls) 0 then Err NonFinite else Ok (1 - lsum losses / lsum mls).
Proof. intros X Y K truthy m nj order w Xs Ys P losses mls [N O]. exact (pscore_value truthy m nj order w Xs Ys P losses mls N O). Qed.

(** ** C59: loss_curve_ *)
(** [_compute_training_loss] appends 1 - score at the iterations divisible by show_loss_every and
    at no others; what was there before is kept *)
Theorem C59_curve : forall {X Y K} (truthy : K -> bool) (m : pmodel X Y K) n_jobs order every Xs Ys (ws : list (list Qc)) scores,
  every <> 0%Z -> Forall2 (fun w s => pscore truthy m n_jobs order w Xs Ys = Ok s) ws scores -> forall start curve,
  exists c, training_losses truthy m n_jobs order every ws Xs Ys start curve = Ok c /\
    let recorded := map (fun p => 1 - snd p) (filter (fun p => ((start + Z.of_nat (fst p)) mod every =? 0)%Z) (combine (seq 0 (length scores)) scores)) in
    (match c with Some l => l | None => [] end) = (match curve with Some l => l | None => [] end) ++ recorded /\
    (c = None <-> curve = None /\ recorded = []).
Proof. exact @training_losses_value. Qed.
(** show_loss_every = 0: never computed, the attribute is not created *)
Theorem C59_off : forall {X Y K} (truthy : K -> bool) (m : pmodel X Y K) n_jobs order Xs Ys ws start curve,
  training_losses truthy m n_jobs order 0 ws Xs Ys start curve = Ok curve.
Proof. exact @training_losses_off. Qed.
(** so a second fit with the same learner leaves the first fit's values in front of its own: the
    curve of a refit is not the curve of a fresh learner *)
Theorem C59_refit_refuted : forall {X Y K} (truthy : K -> bool) (m : pmodel X Y K) n_jobs order every Xs Ys w s ws scores,
  every <> 0%Z -> pscore truthy m n_jobs order w Xs Ys = Ok s -> Forall2 (fun w s => pscore truthy m n_jobs order w Xs Ys = Ok s) ws scores ->
  exists first second fresh,
    training_losses truthy m n_jobs order every [w] Xs Ys 0 None = Ok (Some first) /\
    training_losses truthy m n_jobs order every (w :: ws) Xs Ys 0 (Some first) = Ok (Some second) /\
    training_losses truthy m n_jobs order every (w :: ws) Xs Ys 0 None = Ok (Some fresh) /\ second = first ++ fresh /\ second <> fresh.
Proof.
  intros X Y K truthy m nj order every Xs Ys w s ws scores N H F.
  assert (E1 : training_losses truthy m nj order every [w] Xs Ys 0 None = Ok (Some [1 - s])).
  { cbn [training_losses]. unfold compute_training_loss. apply Z.eqb_neq in N. rewrite N. change (0 mod every =? 0)%Z with (0 mod every =? 0)%Z. rewrite Zmod_0_l. cbn [negb andb Z.eqb]. rewrite H. reflexivity. }
  destruct (training_losses_value truthy m nj order every Xs Ys (w :: ws) (s :: scores) N ltac:(constructor; assumption) 0%Z (Some [1 - s])) as [c [E [V Q]]].
  destruct (training_losses_value truthy m nj order every Xs Ys (w :: ws) (s :: scores) N ltac:(constructor; assumption) 0%Z None) as [c' [E' [V' Q']]].
  cbv zeta in V, Q, V', Q'. set (rec := map _ _) in *.
  destruct c as [second|]; [|exfalso; destruct (proj1 Q eq_refl) as [Z1 _]; discriminate Z1].
  assert (RN : rec <> []). { unfold rec. cbn [length seq combine filter fst snd]. change (0 + Z.of_nat 0)%Z with 0%Z. rewrite Zmod_0_l. cbn [Z.eqb]. discriminate. }
  destruct c' as [fresh|]; [|exfalso; destruct (proj1 Q' eq_refl) as [_ Z1]; contradiction].
  exists [1 - s], second, fresh. split; [exact E1|]. split; [exact E|]. split; [exact E'|]. cbn [app] in V'. rewrite <- V' in V. split; [exact V|].
  intro Q1. apply (f_equal (@length Qc)) in Q1. rewrite V, app_length in Q1. simpl in Q1. lia.
Qed.

(** ** Examples *)
Definition ex19_m : mc_clf := MC 3 2 [1; 1; ofN 2] false false.
Definition ex19_w : list Qc := [1; 0; 0; 1; - (1); - (1)].
Definition ex19_X : list (list Qc) := [[ofN 3; 1]; [1; ofN 4]; [- ofN 2; - (1)]].
Example C51_example :
  predict (fun b : bool => b) (mc_pmodel ex19_m) 1 [] ex19_w ex19_X None = Ok [0; 1; 2]%nat /\
  predict (fun b : bool => b) (mc_pmodel ex19_m) 4 [2; 0; 1]%nat ex19_w ex19_X None = Ok [0; 1; 2]%nat /\
  predict (fun b : bool => b) (mc_pmodel ex19_m) (-1) [1; 2; 0]%nat ex19_w ex19_X (Some []) = Ok [0; 1; 2]%nat /\
  predict (fun b : bool => b) (mc_pmodel ex19_m) 1 [] ex19_w ex19_X (Some [false; false; false]) = Err TypeError /\
  predict (fun b : bool => b) (mc_pmodel ex19_m) 2 [1; 2; 0]%nat ex19_w ex19_X (Some [false; false; false]) = Ok [0; 1; 2]%nat /\
  schedule 4 [2; 0; 1]%nat 3 /\ Forall (fun x => length x = mc_features ex19_m) ex19_X.
Proof.
  repeat (split; [vm_compute; reflexivity|]). split.
  - split; [discriminate|]. intros _. apply (Permutation_cons_app [0; 1]%nat [] 2%nat). reflexivity.
  - repeat constructor.
Qed.
(** two of three right; the mistake is on the class of weight 2 *)
Example C51_score_example :
  (match pscore (fun b : bool => b) (mc_pmodel ex19_m) 1 [] ex19_w ex19_X [0; 1; 2]%nat with Ok s => this s | Err _ => 7 end = 1)%Q /\
  (match pscore (fun b : bool => b) (mc_pmodel ex19_m) 1 [] ex19_w ex19_X [0; 2; 2]%nat with Ok s => this s | Err _ => 7 end = 3 # 5)%Q /\
  (match pscore (fun b : bool => b) (mc_pmodel ex19_m) 4 [2; 0; 1]%nat ex19_w ex19_X [0; 2; 2]%nat with Ok s => this s | Err _ => 7 end = 3 # 5)%Q.
Proof. repeat split. Qed.
Example C59_example :
  match training_losses (fun b : bool => b) (mc_pmodel ex19_m) 1 [] 2 [ex19_w; ex19_w; repeat 0 6; ex19_w] ex19_X [0; 2; 2]%nat 0 None with
  | Ok (Some l) => map this l = [2 # 5; 4 # 5]%Q | _ => False end.
Proof. vm_compute. reflexivity. Qed.
Print Assumptions C51_predict_in_order.
Print Assumptions C51_n_jobs_irrelevant.
Print Assumptions C51_failure.
Print Assumptions C51_n_jobs_zero.
Print Assumptions C51_multiclass.
Print Assumptions C51_binary.
Print Assumptions C51_inherited_batch.
Print Assumptions C51_constraints.
Print Assumptions C51_surplus_dropped.
Print Assumptions C51_inherited_batch_constraints.
Print Assumptions C51_constraints_n_jobs_refuted.
Print Assumptions C51_score.
Print Assumptions C59_curve.
Print Assumptions C59_off.
Print Assumptions C59_refit_refuted.
