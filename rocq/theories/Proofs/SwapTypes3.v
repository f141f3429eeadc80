From Coq Require Import String ZArith Permutation.
From Verif Require Import Model.SwapTypes Spec.SwapTypesSpec Proofs.Arrays Proofs.LossProofs
  Proofs.TypedProofs Proofs.TypedLabels Proofs.TypedScore Proofs.TypedJoint Proofs.TypedLoss Proofs.SwapTypes Proofs.SwapTypes2.
#[local] Open Scope nat_scope.

Lemma flat_lt a b m k : a < m -> b < k -> a * k + b < m * k.
Proof. intros. apply Nat.lt_le_trans with (S a * k); [simpl; lia|]. apply Nat.mul_le_mono_r. lia. Qed.

Section Renumber.
  Variables (g : ty_crf) (p : list nat).
  Let n := length (ty_states g).
  Let g' := renumber p g.
  Hypothesis W : well_typed g.
  Hypothesis P : permutes n p.

  Lemma part_map (f : nat -> nat) t : t < n -> part (map f p) t = f (part p t).
  Proof. intro Ht. unfold part at 1. rewrite (nth_map_in _ _ _ 0) by (rewrite (proj1 P); exact Ht). reflexivity. Qed.
  Lemma states' t : t < n -> part (ty_states g') t = part (ty_states g) (part p t).
  Proof. apply part_map. Qed.
  Lemma features' t : t < n -> part (ty_features g') t = part (ty_features g) (part p t).
  Proof. apply part_map. Qed.
  Lemma edge_features' a b : a < n -> b < n ->
    part (nth a (ty_edge_features g') []) b = part (nth (part p a) (ty_edge_features g) []) (part p b).
  Proof.
    intros Ha Hb. unfold g', renumber. cbn [ty_edge_features]. rewrite (nth_map_in _ _ _ 0) by (rewrite (proj1 P); exact Ha).
    apply (part_map _ b Hb).
  Qed.
  Lemma pair_size' a b : a < n -> b < n -> pair_size g' a b = pair_size g (part p a) (part p b).
  Proof. intros Ha Hb. unfold pair_size. rewrite edge_features', !states' by assumption. reflexivity. Qed.
  Lemma n' : length (ty_states g') = n.
  Proof. unfold g', renumber. cbn [ty_states]. rewrite map_length. exact (proj1 P). Qed.
  Lemma renumber_well_typed : well_typed g'.
  Proof.
    pose proof W as (W1 & W2 & W3 & W4 & W5 & W6 & W7). pose proof P as [L [B I]]. unfold well_typed. rewrite n'. fold n in W1, W2, W3, W4, W5, W6, W7.
    unfold g', renumber at 1 2 3. cbn [ty_features ty_edge_features]. rewrite !map_length. split; [exact W1|]. split; [exact L|]. split; [exact L|].
    split; [apply Forall_forall; intros r Hr; apply in_map_iff in Hr; destruct Hr as [a [<- _]]; rewrite map_length; exact L|].
    split; [intros i j Hi Hj; apply (eq_trans (edge_features' i j Hi Hj)); symmetry; apply (eq_trans (edge_features' j i Hj Hi)); apply W5; apply B; assumption|].
    split; [unfold renumber; simpl; rewrite map_length; exact L|]. intros t Ht. unfold renumber at 1. cbn [ty_weights]. rewrite (nth_map_in _ _ _ 0) by (rewrite L; exact Ht).
    pose proof (states' t Ht) as ES. unfold g' in ES. rewrite ES. apply W7, B, Ht.
  Qed.
  Lemma renumber_instance x x' : typed_instance g x -> renumbered n p x x' -> typed_instance g' x'.
  Proof.
    intros (I1 & I2 & I3 & I4 & I5) R. pose proof R as (R1 & R2 & R3 & R4 & R5). pose proof P as [L [B _]]. fold n in I1, I2, I3, I4, I5.
    unfold typed_instance. rewrite n'. cbv zeta. split; [lia|]. split; [exact R2|]. split; [lia|]. split.
    - intros t m Ht E. rewrite features' by exact Ht. rewrite R4 in E by exact Ht. apply (I4 (part p t) m (B t Ht) E).
    - intros a b Ha Hb. destruct (R5 a b Ha Hb) as [RE RF]. destruct (I5 (part p a) (part p b) (B a Ha) (B b Hb)) as (J1 & J2 & J3).
      unfold x_edges, x_edge_rows. rewrite RE, RF. rewrite !(renumbered_rows n p x x') by assumption. rewrite edge_features' by assumption.
      split; [exact J1|]. split; [exact J2|exact J3].
  Qed.

  (** ** weights *)
  Lemma map_part_firstn (f : nat -> nat) t : t <= n -> map (fun a => f (part p a)) (seq 0 t) = map f (firstn t p).
  Proof.
    intro Ht. pose proof P as [L _]. apply (nth_ext_d _ _ 0); [rewrite !map_length, seq_length, firstn_length; lia|]. intros k Hk.
    rewrite map_length, seq_length in Hk. rewrite (nth_map_seq _ _ _ 0) by exact Hk. rewrite (nth_map_in _ _ _ 0) by (rewrite firstn_length; lia).
    rewrite nth_firstn by exact Hk. reflexivity.
  Qed.
  Lemma node_start' t : t <= n -> node_start g' t = before (map (fun a => part (ty_states g) a * part (ty_features g) a) p) t.
  Proof.
    intro Ht. unfold before. rewrite firstn_map, <- (map_part_firstn (fun a => part (ty_states g) a * part (ty_features g) a)) by exact Ht.
    unfold node_start. f_equal. apply map_ext_in. intros a Ha. apply in_seq in Ha. rewrite states', features' by lia. reflexivity.
  Qed.
  Lemma node_block t : t < n -> node_start g t + part (ty_states g) t * part (ty_features g) t <= node_start g n.
  Proof.
    intro Ht. unfold node_start. replace (seq 0 n) with (seq 0 t ++ t :: seq (S t) (n - S t)).
    - rewrite map_app, list_sum_app. simpl. lia.
    - replace (seq 0 n) with (seq 0 (t + S (n - S t))) by (f_equal; lia). rewrite seq_app. reflexivity.
  Qed.
  Definition sizes : list nat := map (fun q => ty_nef g q * ty_ns g (fst q) * ty_ns g (snd q)) (type_pairs n).
  Lemma edge_start_sizes a b : a < n -> b <= n -> edge_start g a b = node_start g n + before sizes (a * n + b).
  Proof. intros Ha Hb. rewrite edge_start_before by assumption. rewrite size_unaries_start by exact W. reflexivity. Qed.
  Lemma size_total : ty_size g = node_start g n + list_sum sizes.
  Proof. unfold ty_size. rewrite size_unaries_start by exact W. reflexivity. Qed.
  Lemma edge_block a b : a < n -> b < n -> edge_start g a b + pair_size g a b <= ty_size g.
  Proof.
    intros Ha Hb. rewrite edge_start_sizes by lia. rewrite size_total.
    pose proof (before_part_le sizes (a * n + b) ltac:(unfold sizes; rewrite map_length, pairs_length; apply pair_lt; assumption)) as H.
    unfold sizes at 2 in H. unfold part in H. rewrite (nth_map_in _ _ _ (0, 0)) in H by (rewrite pairs_length; apply pair_lt; assumption).
    rewrite pairs_nth in H by assumption. cbn [fst snd] in H. rewrite pair_size_model in H. fold n in H. lia.
  Qed.
  Lemma permuted_pairs {A} (f : nat * nat -> A) : map f (list_prod p p) = map (fun q => f (part p (fst q), part p (snd q))) (type_pairs n).
  Proof.
    pose proof P as [L _]. unfold part, type_pairs.
    assert (E : p = map (fun t => nth t p 0) (seq 0 n)).
    { apply (nth_ext_d _ _ 0); [rewrite map_length, seq_length; exact L|]. intros k Hk. rewrite (nth_map_seq _ _ _ 0) by lia. reflexivity. }
    assert (G : forall (h : nat -> nat) l r, map f (list_prod (map h l) (map h r)) = map (fun q => f (h (fst q), h (snd q))) (list_prod l r)).
    { intros h l r. induction l as [|a l IH]; [reflexivity|]. cbn [map list_prod]. rewrite !map_app, IH, !map_map. reflexivity. }
    rewrite E at 1 2. apply (G (fun t => nth t p 0)).
  Qed.
  Lemma edge_start' a b : a < n -> b <= n ->
    edge_start g' a b = node_start g' n + before (map (fun q => pair_size g (fst q) (snd q)) (list_prod p p)) (a * n + b).
  Proof.
    intros Ha Hb. rewrite permuted_pairs. rewrite (pairs_before (fun q => pair_size g (fst (part p (fst q), part p (snd q))) (snd (part p (fst q), part p (snd q))))) by assumption.
    unfold edge_start. rewrite n'. rewrite <- Nat.add_assoc. f_equal. f_equal.
    - f_equal. apply map_ext_in. intros c Hc. apply in_seq in Hc. unfold pair_row. f_equal. apply map_ext_in. intros d Hd. apply in_seq in Hd. cbn [fst snd]. apply pair_size'; lia.
    - unfold pair_row. f_equal. apply map_ext_in. intros d Hd. apply in_seq in Hd. cbn [fst snd]. apply pair_size'; lia.
  Qed.

  Variable w : list Qc.
  Hypothesis LW : length w = ty_size g.
  Let w' := renumber_weights p g w.
  Let nb := map (fun t => slice (node_start g t) (node_start g t + part (ty_states g) t * part (ty_features g) t) w) p.
  Let eb := map (fun q => slice (edge_start g (fst q) (snd q)) (edge_start g (fst q) (snd q) + pair_size g (fst q) (snd q)) w) (list_prod p p).
  Lemma nb_lengths : map (@length Qc) nb = map (fun a => part (ty_states g) a * part (ty_features g) a) p.
  Proof.
    unfold nb. rewrite map_map. apply map_ext_in. intros a Ha. apply (permutes_in n p a P) in Ha. pose proof (node_block a Ha).
    rewrite slice_length; [lia|lia|]. rewrite LW, size_total. lia.
  Qed.
  Lemma eb_lengths : map (@length Qc) eb = map (fun q => pair_size g (fst q) (snd q)) (list_prod p p).
  Proof.
    unfold eb. rewrite map_map. apply map_ext_in. intros [a b] H. apply in_prod_iff in H. destruct H as [Ha Hb].
    apply (permutes_in n p _ P) in Ha, Hb. cbn [fst snd]. pose proof (edge_block a b Ha Hb). rewrite slice_length; lia.
  Qed.
  Lemma nb_total : length (concat nb) = node_start g' n.
  Proof. rewrite concat_len, nb_lengths, node_start' by lia. symmetry. apply before_all. rewrite map_length, (proj1 P). lia. Qed.
  Lemma weights_length : length w' = ty_size g'.
  Proof.
    unfold w', renumber_weights. fold nb eb. rewrite app_length, nb_total, concat_len, eb_lengths.
    unfold ty_size. rewrite (size_unaries_start g' renumber_well_typed), n'. f_equal. unfold ty_size_pairwise, ty_types. rewrite n', permuted_pairs.
    f_equal. apply map_ext_in. intros [a b] H. apply pairs_in in H. cbn [fst snd]. rewrite <- pair_size' by apply H. symmetry. apply pair_size_model.
  Qed.
  Lemma weights_node t i : t < n -> i < part (ty_states g) (part p t) * part (ty_features g) (part p t) ->
    get1 w' (node_start g' t + i) = get1 w (node_start g (part p t) + i).
  Proof.
    intros Ht Hi. pose proof P as [L [B _]]. unfold w', renumber_weights. fold nb eb. unfold get1 at 1. rewrite node_start' by lia.
    assert (LN : length nb = n) by (unfold nb; rewrite map_length; exact L).
    assert (NN : nth t nb [] = slice (node_start g (part p t)) (node_start g (part p t) + part (ty_states g) (part p t) * part (ty_features g) (part p t)) w).
    { unfold nb. rewrite (nth_map_in _ _ _ 0) by lia. reflexivity. }
    assert (LL : length (nth t nb []) = part (ty_states g) (part p t) * part (ty_features g) (part p t)).
    { rewrite NN. pose proof (node_block (part p t) (B t Ht)). rewrite slice_length; [lia|lia|]. rewrite LW, size_total. lia. }
    rewrite <- nb_lengths. rewrite app_nth1.
    - rewrite concat_blocks by lia. rewrite NN. apply get1_slice. lia.
    - rewrite concat_len. pose proof (before_part_le (map (@length Qc) nb) t ltac:(rewrite map_length; lia)) as H.
      unfold part at 1 in H. rewrite (nth_map_in _ _ _ []) in H by lia. rewrite LL in H. lia.
  Qed.
  Lemma weights_edge a b i : a < n -> b < n -> i < pair_size g (part p a) (part p b) ->
    get1 w' (edge_start g' a b + i) = get1 w (edge_start g (part p a) (part p b) + i).
  Proof.
    intros Ha Hb Hi. pose proof P as [L [B _]]. unfold w', renumber_weights. fold nb eb. unfold get1 at 1. rewrite edge_start' by lia.
    rewrite app_nth2 by (rewrite nb_total; lia). rewrite nb_total.
    replace (node_start g' n + before (map (fun q => pair_size g (fst q) (snd q)) (list_prod p p)) (a * n + b) + i - node_start g' n)
      with (before (map (fun q => pair_size g (fst q) (snd q)) (list_prod p p)) (a * n + b) + i) by lia.
    rewrite <- eb_lengths. pose proof (pair_lt a b n Ha Hb) as PL.
    assert (LN : length eb = n * n) by (unfold eb; rewrite map_length, prod_length, L; reflexivity).
    assert (NN : nth (a * n + b) eb [] = slice (edge_start g (part p a) (part p b)) (edge_start g (part p a) (part p b) + pair_size g (part p a) (part p b)) w).
    { unfold eb. rewrite (nth_map_in _ _ _ (0, 0)) by (rewrite prod_length, L; exact PL).
      assert (E : nth (a * n + b) (list_prod p p) (0, 0) = (part p a, part p b)).
      { rewrite <- L. apply nth_list_prod; rewrite L; assumption. }
      rewrite E. reflexivity. }
    assert (LL : length (nth (a * n + b) eb []) = pair_size g (part p a) (part p b)).
    { rewrite NN. pose proof (edge_block (part p a) (part p b) (B a Ha) (B b Hb)). rewrite slice_length; lia. }
    rewrite concat_blocks by lia. rewrite NN. apply get1_slice. lia.
  Qed.

  Local Open Scope Qc_scope.
  Lemma type_score' t feat s : (t < n)%nat -> (s < part (ty_states g) (part p t))%nat ->
    type_score g' w' t feat s = type_score g w (part p t) feat s.
  Proof.
    intros Ht Hs. unfold type_score. rewrite features' by exact Ht. apply sumn_ext. intros f Hf. f_equal. apply weights_node; [exact Ht|]. apply flat_lt; assumption.
  Qed.
  Lemma pair_score' a b feat s s' : (a < n)%nat -> (b < n)%nat -> (s < part (ty_states g) (part p a))%nat -> (s' < part (ty_states g) (part p b))%nat ->
    pair_types_score g' w' a b feat s s' = pair_types_score g w (part p a) (part p b) feat s s'.
  Proof.
    intros Ha Hb Hs Hs'. unfold pair_types_score. rewrite edge_features', !states' by assumption. apply sumn_ext. intros f Hf. f_equal.
    apply weights_edge; [exact Ha|exact Hb|]. unfold pair_size.
    apply flat_lt; [exact Hf|]. apply flat_lt; assumption.
  Qed.

  Lemma score_renumbered x x' y y' : typed_instance g x -> renumbered n p x x' -> typed_labelling (ty_states g) (type_rows n x) y ->
    same_states n p (ty_states g) x x' y y' -> ty_score g' x' w' y' = ty_score g x w y.
  Proof.
    intros I R Y S. pose proof P as [L [B _]]. pose proof R as (R1 & R2 & R3 & R4 & R5).
    destruct (same_states_labelling n p (ty_states g) x x' y y' eq_refl P R Y S) as [Y' LB].
    assert (RR : forall t, (t < n)%nat -> x_rows x' t = x_rows x (part p t)) by (intros t Ht; apply (renumbered_rows n p x x' t R Ht)).
    unfold ty_score. rewrite n'. fold n. unfold typed_score. f_equal.
    - rewrite <- (sumn_permutes n p (fun t => sumn (x_rows x t) (fun i => type_score g w t (x_feat x t i) (typed_lab (ty_states g) (type_rows n x) y t i))) P).
      apply sumn_ext. intros t Ht. rewrite RR by exact Ht. apply sumn_ext. intros i Hi.
      change (ty_states g') with (map (part (ty_states g)) p). rewrite LB by assumption.
      rewrite type_score'; [|exact Ht|apply typed_lab_lt; [exact Y|apply B, Ht|rewrite rows_part by (apply B, Ht); exact Hi]].
      unfold type_score. apply sumn_ext. intros f Hf. f_equal. unfold x_feat. rewrite R4 by exact Ht. reflexivity.
    - match goal with |- _ = sumn n ?F => rewrite <- (sumn_permutes n p F P) end. apply sumn_ext. intros a Ha.
      match goal with |- _ = sumn n ?F => rewrite <- (sumn_permutes n p F P) end. apply sumn_ext. intros b Hb.
      destruct (R5 a b Ha Hb) as [RE RF].
      assert (EE : x_edges n x' a b = x_edges n x (part p a) (part p b)) by (unfold x_edges; rewrite RE; reflexivity).
      rewrite EE. apply sumn_ext. intros e He. destruct I as (_ & _ & _ & _ & I5). fold n in I5.
      destruct (I5 (part p a) (part p b) (B a Ha) (B b Hb)) as (J1 & _ & _). rewrite Forall_forall in J1.
      specialize (J1 _ (nth_In _ (0, 0)%Z He)). set (ed := nth e _ (0, 0)%Z) in *.
      assert (F1 : (Z.to_nat (fst ed) < x_rows x (part p a))%nat) by lia. assert (F2 : (Z.to_nat (snd ed) < x_rows x (part p b))%nat) by lia.
      change (ty_states g') with (map (part (ty_states g)) p). rewrite !LB by assumption.
      rewrite pair_score'; [|exact Ha|exact Hb|apply typed_lab_lt; [exact Y|apply B, Ha|rewrite rows_part by (apply B, Ha); exact F1]
                             |apply typed_lab_lt; [exact Y|apply B, Hb|rewrite rows_part by (apply B, Hb); exact F2]].
      unfold pair_types_score. apply sumn_ext. intros f Hf. f_equal. unfold x_edge_feat. rewrite RF. reflexivity.
  Qed.
End Renumber.
