(** Prediction, score and an example of the latent multiclass SVM. *)
From Coq Require Import ZArith String.
From Verif Require Import Model.Inference Model.SvmAsCrf Model.LatentLearner Model.LatentSSVM Spec.SimilarSpec Spec.ClassSpec Spec.SingleTypeSpec Spec.LatentSpec Proofs.Arrays Proofs.LossProofs Proofs.LearnerProofs Proofs.NSlackProofs4 Proofs.LatentProofs Proofs.LatentOneNode.

Section all.
Variables (nl F : nat) (p : per_label) (g : lg_crf) (solve : solver) (cluster : clusterer).
Hypothesis EG : lg_setup nl F p = Ok g.
Hypothesis HK : (0 < lg_states g)%nat.
Hypothesis Hsolve : first_best_node (lg_states g) solve.
Variable w : list Qc.
Hypothesis HW : length w = g_size (lg_graph g).
Lemma predict_all Xs : Forall (fun x => length x = F) Xs -> exists ss, Forall2 (fun x s => first_argmax (lg_states g) (class_score F w x) s) Xs ss /\
  cccp_predict_latent (lg_lmodel solve cluster g) w (map node_x Xs) = Ok (map (fun s => [s]) ss) /\
  cccp_predict (lg_lmodel solve cluster g) w (map node_x Xs) = Ok (map (fun s => node_y (owner (lg_counts g) s)) ss).
Proof.
  intro H. assert (Q : exists ss, Forall2 (fun x s => first_argmax (lg_states g) (class_score F w x) s) Xs ss /\
     mapM (fun x => g_inference solve (lg_graph g) x w) (map node_x Xs) = Ok (map (fun s => [s]) ss) /\
     mapM (label_from_latent g) (map (fun s => [s]) ss) = Ok (map (fun s => node_y (owner (lg_counts g) s)) ss)).
  { induction H as [|x Xs Hx H IH]. { exists []. repeat split; constructor. } destruct IH as (ss & A1 & A2 & A3).
    destruct (lnode_predict nl F p g solve EG HK Hsolve x w Hx HW) as (s & B1 & B2 & B3). exists (s :: ss). split; [constructor; assumption|]. cbn [map mapM].
    rewrite B2. cbn [bind]. rewrite A2. cbn [bind]. split; [reflexivity|]. rewrite B3. cbn [bind]. rewrite A3. reflexivity. }
  destruct Q as (ss & A1 & A2 & A3). exists ss. split; [exact A1|]. unfold cccp_predict, cccp_predict_latent. cbn [lg_lmodel lm_s lg_smodel sm_inference lm_label]. rewrite A2. split; [reflexivity|]. cbn [bind]. exact A3.
Qed.
Definition wrong (q : nat * nat) : bool := negb (fst q =? snd q)%nat.
Lemma one_weight y : (y < lg_labels g)%nat -> get1 (repeat 1 (lg_labels g)) y = 1.
Proof. intro H. unfold get1. rewrite (nth_indep _ 0 1) by (rewrite repeat_length; exact H). apply nth_repeat. Qed.
Lemma base_loss_one y y' : (y < lg_labels g)%nat -> lg_base_loss g (node_y y) (node_y y') = Ok (if wrong (y, y') then 1 else 0).
Proof.
  intro H. unfold lg_base_loss, lg_cw, loss, class_weights, node_y, wrong. cbn [mapM]. rewrite (index_ok _ _ 0) by (rewrite repeat_length; exact H). fold (get1 (repeat 1 (lg_labels g)) y). rewrite one_weight by exact H.
  cbn. destruct (y =? y')%nat; cbn; f_equal; apply Qc_is_canon; vm_compute; reflexivity.
Qed.
Lemma max_loss_one y : (y < lg_labels g)%nat -> max_loss (lg_cw g) (node_y y) = Ok 1.
Proof.
  intro H. unfold max_loss, lg_cw, class_weights, node_y. cbn [mapM]. rewrite (index_ok _ _ 0) by (rewrite repeat_length; exact H). fold (get1 (repeat 1 (lg_labels g)) y). rewrite one_weight by exact H.
  cbn. f_equal; try (apply Qc_is_canon; vm_compute; reflexivity).
Qed.
Lemma score_all Xs Ys : Forall (fun x => length x = F) Xs -> length Ys = length Xs -> Ys <> [] -> Forall (fun y => (y < nl)%nat) Ys ->
  exists ls, Forall2 (fun x l => exists s, first_argmax (lg_states g) (class_score F w x) s /\ in_block (lg_counts g) l s) Xs ls /\
  cccp_score (lg_lmodel solve cluster g) w (map node_x Xs) (map node_y Ys) =
    Ok (1 - ofN (length (filter (fun q => negb (fst q =? snd q)%nat) (combine Ys ls))) / ofN (length Ys)).
Proof.
  intros HX HL HN HY. destruct (predict_all Xs HX) as (ss & A1 & _ & A3). assert (EL : lg_labels g = nl) by apply (setup_laid_out _ _ _ _ EG).
  exists (map (owner (lg_counts g)) ss). split.
  { clear - A1. induction A1 as [|x s Xs ss H A IH]; [constructor|]. cbn [map]. constructor; [|exact IH]. exists s. split; [exact H|]. apply owner_block, H. }
  assert (LS : length ss = length Ys). { rewrite HL. clear - A1. induction A1; cbn; congruence. }
  unfold cccp_score. rewrite A3. cbn [bind lg_lmodel lm_base_loss lm_max_loss].
  assert (E1 : exists v, mapM (fun q => lg_base_loss g (fst q) (snd q)) (combine (map node_y Ys) (map (fun s => node_y (owner (lg_counts g) s)) ss)) = Ok v /\
     lsum v = ofN (length (filter (fun q => negb (fst q =? snd q)%nat) (combine Ys (map (owner (lg_counts g)) ss))))).
  { clear A1 A3 HL HN. revert ss LS. induction HY as [|y Ys Hy HY IH]; intros [|s ss] LS; try discriminate LS. { exists []. split; reflexivity. }
    cbn [length] in LS. destruct (IH ss) as (v & V1 & V2); [congruence|]. cbn [map combine mapM fst snd filter].
    rewrite base_loss_one by (rewrite EL; exact Hy). cbn [bind]. rewrite V1. cbn [bind]. eexists. split; [reflexivity|]. rewrite lsum_cons, V2. unfold wrong. cbn [fst snd].
    destruct (negb (y =? owner (lg_counts g) s)%nat); [cbn [length]; rewrite ofN_S; ring|ring]. }
  assert (E2 : mapM (max_loss (lg_cw g)) (map node_y Ys) = Ok (repeat 1 (length Ys))).
  { clear - HY EL. induction HY as [|y Ys Hy HY IH]; [reflexivity|]. cbn [map mapM length repeat]. rewrite max_loss_one by (rewrite EL; exact Hy). cbn [bind]. rewrite IH. reflexivity. }
  destruct E1 as (v & -> & V). cbn [bind]. rewrite E2. cbn [bind]. assert (E3 : lsum (repeat 1 (length Ys)) = ofN (length Ys)).
  { clear. induction Ys as [|y Ys IH]; [reflexivity|]. cbn [length repeat]. rewrite lsum_cons, IH, ofN_S. ring. }
  rewrite E3, V. destruct (Qceqb_spec (ofN (length Ys)) 0) as [Z|_]; [|reflexivity]. exfalso. destruct Ys as [|y Ys']; [congruence|]. cbn [length] in Z. rewrite ofN_S in Z.
  assert (0 <= ofN (length Ys')) by apply ofN_nonneg. set (z := ofN (length Ys')) in *. clearbody z. assert (Q : 0 < 1 + z) by qclra. rewrite (Qcplus_comm 1 z) in Q. first [rewrite Z in Q|rewrite (Qcplus_comm z 1), Z in Q]. discriminate Q.
Qed.
End all.

(** 2 labels with 2 states each, 2 features *)
Definition ex59_g : lg_crf := LGCRF 2 2 [2; 2]%nat [0; 0; 1; 1]%nat.
Definition ex59_w : list Qc := [1; 0; 0; 1; - (1); 0; 0; - (1)] ++ vzero 10.
Definition ex59_b : backends := Backends (fun _ => Err NonFinite) None (fun z => z) None None.
Definition ex59_solve : solver := dispatch_solver ex59_b "unary".
