(** C03, C19, C20, C46: the loss, loss augmentation, the score, exhaustive search. *)
From Verif Require Import Model.CRF Model.Score Model.Exhaustive Model.ChainCRF
  Spec.Energy Spec.GraphSpec Spec.LossSpec Spec.SolverSpec
  Proofs.Arrays Proofs.EnergyProofs Proofs.GraphCRFProofs Proofs.LossProofs Proofs.CRFProofs
  Proofs.ScoreProofs Proofs.ScoreProofs2 Proofs.ViterbiProofs Proofs.MaxProdProofs Proofs.ChainProofs.

(** C03, the potentials: after loss augmentation every labelling scores its old score plus its
    (class-weighted Hamming) loss. *)
Theorem C03_augmented_potentials :
  forall (U : mat) (y : list nat) (cw : list Qc) (n k : nat) (edges : list (nat * nat)) (P : nat -> nat -> nat -> Qc),
    mrows U = n -> mcols U = k -> length cw = k -> labelling n k y ->
    exists U', loss_augment_unaries U y cw = Ok U' /\ mrows U' = n /\ mcols U' = k /\
      forall y', labelling n k y' ->
        exists l, loss (Some cw) y y' = Ok l /\
          score n edges (mget U') P (lab y') = score n edges (mget U) P (lab y') + l.
Proof. exact augmented_potentials. Qed.

(** C03, the oracle: with a solver that is exact on the given graph, loss_augmented_inference
    maximises dot(w, joint_feature(x, y')) + loss(y, y') over all labellings y'. *)
Theorem C03_loss_augmented_inference_exact :
  forall (solve : solver) (g : graph_crf) (cw : list Qc) (x : graph_x) (y : list nat) (w : list Qc),
    exact_solver_on solve (mrows (gx_features x)) (gx_edges x) ->
    mat_ok (gx_features x) -> mcols (gx_features x) = g_features g ->
    graph_edges (mrows (gx_features x)) (gx_edges x) ->
    length w = g_size g -> (0 < g_states g)%nat ->
    length cw = g_states g -> labelling (mrows (gx_features x)) (g_states g) y ->
    exists yh psi l,
      g_loss_augmented_inference solve g cw x y w = Ok yh /\
      labelling (mrows (gx_features x)) (g_states g) yh /\
      g_joint_feature g x (Discrete yh) = Ok psi /\ loss (Some cw) y yh = Ok l /\
      forall y' psi' l', labelling (mrows (gx_features x)) (g_states g) y' ->
        g_joint_feature g x (Discrete y') = Ok psi' -> loss (Some cw) y y' = Ok l' ->
        dot w psi' + l' <= dot w psi + l.
Proof.
  exact (fun solve g cw x y w H1 H2 H3 H4 H5 H6 H7 H8 =>
    g_loss_augmented_exact solve g cw x y w H1 (Build_valid_x g x H2 H3 H4) H5 H6 H7 H8).
Qed.

(** C03 without assumption on the solver: ChainCRF with its default max-product inference. *)
Theorem C03_chaincrf_loss_augmented_inference_exact :
  forall (g : graph_crf) (cw : list Qc) (x : mat) (y : list nat) (w : list Qc),
    mat_ok x -> mcols x = g_features g -> (0 < mrows x)%nat -> (0 < g_states g)%nat ->
    length w = g_size g -> length cw = g_states g -> labelling (mrows x) (g_states g) y ->
    exists yh psi l,
      chain_loss_augmented_inference g cw x y w = Ok yh /\ labelling (mrows x) (g_states g) yh /\
      g_joint_feature g (chain_x x) (Discrete yh) = Ok psi /\ loss (Some cw) y yh = Ok l /\
      forall y' psi' l', labelling (mrows x) (g_states g) y' ->
        g_joint_feature g (chain_x x) (Discrete y') = Ok psi' -> loss (Some cw) y y' = Ok l' ->
        dot w psi' + l' <= dot w psi + l.
Proof. exact chain_loss_augmented_exact. Qed.

(** C19. [cw = None]: the model has no class_weight attribute. *)
Theorem C19_loss_laws :
  forall (cw : option (list Qc)) (y y' : list nat),
    covers cw y -> length y' = length y ->
    exists l m, loss cw y y' = Ok l /\ max_loss cw y = Ok m /\ loss cw y y = Ok 0 /\
      ((forall c s, cw = Some c -> (s < length c)%nat -> 0 <= get1 c s) -> 0 <= l /\ l <= m) /\
      ((forall c s, cw = Some c -> (s < length c)%nat -> 0 < get1 c s) -> l = 0 -> y = y').
Proof. exact loss_laws. Qed.

Theorem C19_loss_is_hamming :
  forall (cw : option (list Qc)) (y y' : list nat),
    covers cw y ->
    (length y' = length y -> loss cw y y' = Ok (hamming (length y) (price cw) (lab y) (lab y'))) /\
    (length y' <> length y -> loss cw y y' = Err ValueError) /\
    max_loss cw y = Ok (sumn (length y) (fun i => price cw (lab y i))).
Proof. exact (fun cw y y' H => conj (loss_price cw y y' H) (conj (loss_length cw y y' H) (max_loss_price cw y H))). Qed.

Theorem C19_loss_rejects_unknown_class :
  forall (c : list Qc) (y y' : list nat), ~ covers (Some c) y ->
    loss (Some c) y y' = Err IndexError /\ max_loss (Some c) y = Err IndexError.
Proof. exact loss_uncovered. Qed.

Theorem C19_continuous_loss_one_hot :
  forall (cw : option (list Qc)) (y y' : list nat) (k : nat),
    covers cw y -> labelling (length y) k y -> labelling (length y) k y' ->
    exists m, one_hot k y' = Ok m /\ continuous_loss cw y m = loss cw y y'.
Proof. exact continuous_one_hot. Qed.

Theorem C19_continuous_loss_bounds :
  forall (cw : option (list Qc)) (y : list nat) (k : nat) (m : mat),
    covers cw y -> labelling (length y) k y -> mrows m = length y -> mcols m = k ->
    (forall c s, cw = Some c -> (s < length c)%nat -> 0 <= get1 c s) ->
    (forall i s, (i < length y)%nat -> (s < k)%nat -> 0 <= mget m i s) ->
    (forall i, (i < length y)%nat -> sumn k (mget m i) = 1) ->
    exists l mx, continuous_loss cw y m = Ok l /\ max_loss cw y = Ok mx /\ 0 <= l /\ l <= mx.
Proof. exact continuous_bounds. Qed.

(** C19, the class weights the loss uses: ones unless given, and then one for each class. *)
Theorem C19_class_weight :
  forall n : nat,
    (exists c, set_class_weight n None = Ok (c, true) /\ length c = n /\
      (forall s, (s < n)%nat -> get1 c s = 1) /\
      forall y y', labelling (length y) n y -> loss (Some c) y y' = loss None y y' /\ max_loss (Some c) y = max_loss None y) /\
    (forall c, length c = n -> set_class_weight n (Some c) = Ok (c, false)) /\
    (forall c, length c <> n -> set_class_weight n (Some c) = Err ValueError).
Proof. exact class_weights. Qed.

(** C20. [P] are the predictions for the data whose labels are [Y]. *)
Theorem C20_score_between_0_and_1 :
  forall (cw : option (list Qc)) (Y P : list (list nat)),
    Forall2 (fun y p => covers cw y /\ length p = length y) Y P ->
    (forall c s, cw = Some c -> (s < length c)%nat -> 0 <= get1 c s) ->
    exists ms, mapM (max_loss cw) Y = Ok ms /\ 0 <= lsum ms /\
      (lsum ms = 0 -> ssvm_score cw Y P = Err NonFinite) /\
      (0 < lsum ms -> exists s, ssvm_score cw Y P = Ok s /\ 0 <= s /\ s <= 1 /\
        ((forall c i, cw = Some c -> (i < length c)%nat -> 0 < get1 c i) -> (s = 1 <-> Y = P))).
Proof. exact score_bounds. Qed.

(** With fewer instances than labels (X shorter than Y) nothing is reported: the missing
    predictions count as correct. *)
Theorem C20_missing_predictions_refuted :
  exists (Y P : list (list nat)), length P <> length Y /\ ssvm_score None Y P = Ok 1.
Proof. exact missing_predictions_refuted. Qed.

(** C46. *)
Theorem C46_exhaustive_inference_exact :
  forall (g : graph_crf) (x : graph_x) (w : list Qc),
    mat_ok (gx_features x) -> mcols (gx_features x) = g_features g ->
    graph_edges (mrows (gx_features x)) (gx_edges x) ->
    length w = g_size g -> (0 < g_states g)%nat ->
    exists y psi, exhaustive_inference g x w = Ok (Some y) /\
      labelling (mrows (gx_features x)) (g_states g) y /\
      g_joint_feature g x (Discrete y) = Ok psi /\
      forall y' psi', labelling (mrows (gx_features x)) (g_states g) y' ->
        g_joint_feature g x (Discrete y') = Ok psi' ->
        dot w psi' <= dot w psi /\ (dot w psi' = dot w psi -> y' = y \/ lex_lt y y').
Proof. exact (fun g x w H1 H2 H3 => exhaustive_inference_exact g x w (Build_valid_x g x H1 H2 H3)). Qed.

Theorem C46_exhaustive_loss_augmented_exact :
  forall (g : graph_crf) (cw : list Qc) (x : graph_x) (y : list nat) (w : list Qc),
    mat_ok (gx_features x) -> mcols (gx_features x) = g_features g ->
    graph_edges (mrows (gx_features x)) (gx_edges x) ->
    length w = g_size g -> (0 < g_states g)%nat -> length cw = g_states g ->
    labelling (mrows (gx_features x)) (g_states g) y ->
    exists yh psi l, exhaustive_loss_augmented_inference g cw x y w = Ok (Some yh) /\
      labelling (mrows (gx_features x)) (g_states g) yh /\
      g_joint_feature g x (Discrete yh) = Ok psi /\ loss (Some cw) y yh = Ok l /\
      forall y' psi' l', labelling (mrows (gx_features x)) (g_states g) y' ->
        g_joint_feature g x (Discrete y') = Ok psi' -> loss (Some cw) y y' = Ok l' ->
        dot w psi' + l' <= dot w psi + l /\ (dot w psi' + l' = dot w psi + l -> y' = yh \/ lex_lt yh y').
Proof. exact (fun g cw x y w H1 H2 H3 => exhaustive_loss_augmented_exact g cw x y w (Build_valid_x g x H1 H2 H3)). Qed.

(** ** Concrete cases *)
Definition ex_g := GraphCRF 2 2 true.
Definition ex_x : mat := Mat 3 2 [[1; ofZ 2]; [0; ofZ (-1)]; [ofZ 3; 1]].
Definition ex_w : list Qc := map ofZ [1; 2; 3; -4; 5; 6; -7; 1]%Z.
Definition ex_cw : list Qc := map ofZ [1; 3]%Z.
Definition ex_y : list nat := [1; 0; 1]%nat.
Example C03_hypotheses_met :
  exact_solver_on max_product_solver 3 (chain_edges 3) /\
  mat_ok ex_x /\ mcols ex_x = g_features ex_g /\ graph_edges 3 (chain_edges 3) /\
  length ex_w = g_size ex_g /\ (0 < g_states ex_g)%nat /\ length ex_cw = g_states ex_g /\ labelling 3 2 ex_y.
Proof.
  split. apply max_product_exact_on_chain; repeat constructor.
  split. apply mat_okb_ok; reflexivity. split. reflexivity. split. repeat constructor.
  repeat split; repeat constructor.
Qed.
Example C03_value :
  chain_loss_augmented_inference ex_g ex_cw ex_x ex_y ex_w =
  match exhaustive_loss_augmented_inference ex_g ex_cw (chain_x ex_x) ex_y ex_w with
  | Ok (Some y) => Ok y | _ => Err OtherException end.
Proof. vm_compute. reflexivity. Qed.
Example C19_hypotheses_met :
  covers (Some ex_cw) ex_y /\ covers None [7]%nat /\ labelling 3 2 ex_y /\
  (forall c s, Some ex_cw = Some c -> (s < length c)%nat -> 0 < get1 c s) /\ ~ covers (Some ex_cw) [2]%nat /\
  (forall i, (i < 3)%nat -> sumn 2 (mget (mtab 3 2 (fun _ _ => Q2Qc (1 # 2))) i) = 1).
Proof.
  split. repeat constructor. split. exact I. split. repeat constructor. split.
  intros c s E H. injection E as <-. destruct s as [|[|s]]; [reflexivity|reflexivity|simpl in H; lia].
  split. intro H. inversion H. simpl in *. lia.
  intros i H. destruct i as [|[|[|i]]]; try (apply Qc_is_canon; reflexivity). lia.
Qed.
Example C20_hypotheses_met :
  Forall2 (fun y p => covers (Some ex_cw) y /\ length p = length y) [ex_y; [0]%nat] [[1; 1; 1]; [0]]%nat.
Proof. repeat constructor. Qed.
Example C20_value : match ssvm_score (Some ex_cw) [ex_y; [0]%nat] [[1; 1; 1]; [0]]%nat with
  | Ok s => this s = (7 # 8)%Q | _ => False end.
Proof. vm_compute. reflexivity. Qed.

Print Assumptions C03_augmented_potentials.
Print Assumptions C03_loss_augmented_inference_exact.
Print Assumptions C03_chaincrf_loss_augmented_inference_exact.
Print Assumptions C19_loss_laws.
Print Assumptions C19_loss_is_hamming.
Print Assumptions C19_loss_rejects_unknown_class.
Print Assumptions C19_continuous_loss_one_hot.
Print Assumptions C19_continuous_loss_bounds.
Print Assumptions C20_score_between_0_and_1.
Print Assumptions C20_missing_predictions_refuted.
Print Assumptions C46_exhaustive_inference_exact.
Print Assumptions C46_exhaustive_loss_augmented_exact.
Print Assumptions C19_class_weight.
