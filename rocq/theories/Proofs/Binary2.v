From Coq Require Import ZArith.
From Verif Require Import Model.MoreInstances Model.NSlack Spec.BinarySpec Spec.SolverSpec Spec.QPSpec Spec.NSlackSpec Spec.SpanSpec Spec.CuttingPlaneSpec
  Proofs.Binary Proofs.Agree Proofs.NSlackProofs2 Proofs.NSlackProofs3 Proofs.LatentSSVMProofs2 Proofs.EndToEnd Proofs.EnergyProofs Proofs.MultiLabelProofs Proofs.InferenceProofs Model.Inference Spec.LabelSpec.

Lemma labels_n_slack inf L F solve prm (Xs : list (list Qc)) (Ys : list (list nat)) old st curve primal reason :
  (2 <= L)%nat -> exact_on_tables inf L [] -> length Xs = length Ys -> Forall (multi_sample F L) (combine Xs Ys) ->
  0 <= ns_C prm -> ns_window prm = O -> ns_neg prm = None -> ns_tol prm <= 0 -> qp_exact solve ->
  answers_all solve (ns_C prm) (length Xs) (ml_task (ML L F [])) (combine Xs Ys) ->
  (list_sum (map (fun _ => 2 ^ L) Xs) < ns_max_iter prm)%nat ->
  ns_fit labels_eqb solve prm (ml_smodel inf (ML L F [])) None Xs Ys None old = Ok (st, curve, primal, reason) ->
  forall l, (l < L)%nat ->
    near_minimal bc_task F (ofN 4 * ns_C prm) (one_label l (combine Xs Ys)) (vscale (1 + 1) (block F (st_w st) l))
                 (ofN 4 * n_gap (ns_C prm) (length Xs)).
Proof.
  intros H2 HE HXY HS H3 H4 H5 H6 H7 H8 H9 HF l Hl.
  assert (HV : forall x y, In (x, y) (combine Xs Ys) -> length x = F /\ Energy.labelling L 2 y).
  { intros x y I. rewrite Forall_forall in HS. exact (HS _ I). }
  assert (HO := ml_oracle inf (ML L F []) (combine Xs Ys) (Forall_nil _) H2 HE HV).
  apply (labels_near F L (ns_C prm) (combine Xs Ys) (st_w st) _ l HS); [|exact Hl].
  apply within_near.
  - assert (OK' : forall m', None = Some m' -> oracle_ok m' (ml_task (ML L F [])) (ml_size (ML L F [])) (combine Xs Ys)) by discriminate.
    exact (proj1 (fit_state _ _ labels_eqb solve prm H3 Xs Ys (ml_smodel inf (ML L F [])) None None old st curve primal reason HXY (qp_exact_sound solve H7) eq_refl (exact_is_ok _ _ _ _ HO) OK' I HF)).
  - exact (proj2 (labelling_fit (ml_task (ML L F [])) (fun _ => L) 2 (fun _ => 1) (ml_size (ML L F [])) (ml_smodel inf (ML L F [])) solve prm Xs Ys old st curve primal reason
    (fun x y H => H) (fun y y' => eq_refl) (fun _ _ => eq_refl) HXY eq_refl HO H3 H4 H5 H6 H7 H8 H9 HF)).
Qed.

(** ** inference_method='unary' *)
Lemma unary_exact L : exact_on_tables inference_unaries L [].
Proof.
  intros U p k HU HR HC HP Hk. apply (unaries_exact U p [] L k (fun _ => 0)); auto; [constructor|]. intros e s t He. cbn in He. lia.
Qed.
Lemma unary_predicts F L x w : length x = F -> length w = (L * F)%nat ->
  exists y, ml_inference inference_unaries (ML L F []) x w = Ok y /\ Energy.labelling L 2 y /\
    forall l, (l < L)%nat -> (lab y l = 1%nat <-> 0 < dot (block F w l) x).
Proof.
  intros Hx Hw. assert (Hw' : length w = ml_size (ML L F [])) by (unfold ml_size; cbn; lia).
  destruct (ml_predicts F L inference_unaries x w (unary_exact L) Hx Hw) as [y [E [Hy K]]]. exists y. split; [exact E|]. split; [exact Hy|]. intros l Hl.
  destruct (K l Hl) as [K1 K2]. split; [|exact K1]. intro Hl1.
  destruct (ml_unary_ok (ML L F []) x w Hw' Hx) as [U [EU [OU [RU [CU GU]]]]]. destruct (ml_pairwise_ok (ML L F []) w Hw') as [d [EP [LP GP]]].
  unfold ml_inference in E. unfold check_size_w in E. rewrite Hw', Nat.eqb_refl in E. cbn [bind ensure] in E. rewrite EU, EP in E. cbn [bind] in E.
  destruct (unaries_ok U (Pw3 (length (ml_edges (ML L F []))) 2 2 d) [] L 2 RU CU ltac:(lia)) as [y' [E' [_ [_ K']]]].
  { cbn. repeat split; auto. }
  cbn [ml_edges] in E, E'. rewrite E' in E. injection E as ->. assert (Q := K' l 0%nat Hl). rewrite Hl1 in Q. specialize (Q ltac:(lia)).
  cbn [ml_labels] in GU. rewrite !GU in Q by lia. unfold label_unary in Q. cbn [Nat.eqb ml_features] in Q. rewrite (dot_block F w l x Hx).
  set (s := sumn F _) in *. clearbody s. clear - Q. qclra.
Qed.
