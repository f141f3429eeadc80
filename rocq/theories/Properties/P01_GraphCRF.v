(** C01, C02 (GraphCRF part), C10, C11: scores, sizes and symmetric matrices. *)
From Verif Require Import Model.GraphCRF Spec.Energy Spec.GraphSpec
  Proofs.Arrays Proofs.SymProofs Proofs.EnergyProofs Proofs.GraphCRFProofs.

(** C01. For every well-formed instance and labelling, joint_feature succeeds, has the
    announced size, and dot(w, joint_feature(x, y)) is compute_energy of the potentials
    handed to inference; both equal the documented score. *)
Theorem C01_graphcrf_score_linear :
  forall (g : graph_crf) (x : graph_x) (w : list Qc) (y : list nat),
    mat_ok (gx_features x) ->
    mcols (gx_features x) = g_features g ->
    graph_edges (mrows (gx_features x)) (gx_edges x) ->
    length w = g_size g ->
    labelling (mrows (gx_features x)) (g_states g) y ->
    exists U P psi,
      g_unary g x w = Ok U /\
      g_pairwise g x w = Ok P /\
      g_joint_feature g x (Discrete y) = Ok psi /\
      length psi = g_size g /\
      compute_energy U (Pw2 P) (gx_edges x) y = Ok (dot w psi) /\
      dot w psi =
        score (mrows (gx_features x)) (gx_edges x)
              (fun i s => unary_score (g_features g) w (mget (gx_features x) i) s)
              (fun _ s t => pair_score (g_states g) (g_features g) (g_directed g) w s t)
              (lab y).
Proof. exact graphcrf_score_linear. Qed.

(** C01, relaxed labellings: unary marginals [um] (flat, n_nodes*n_states) and pairwise
    marginals [pw] (flat, n_pw*n_states^2): the score is the marginal-weighted sum of
    the same potentials. *)
Theorem C01_graphcrf_relaxed_score_linear :
  forall (g : graph_crf) (x : graph_x) (w um pw : list Qc) (n_pw : nat),
    mat_ok (gx_features x) ->
    mcols (gx_features x) = g_features g ->
    graph_edges (mrows (gx_features x)) (gx_edges x) ->
    length w = g_size g ->
    (0 < g_states g)%nat ->
    length um = (mrows (gx_features x) * g_states g)%nat ->
    length pw = (n_pw * (g_states g * g_states g))%nat ->
    exists U P psi,
      g_unary g x w = Ok U /\
      g_pairwise g x w = Ok P /\
      g_joint_feature g x (Relaxed um pw) = Ok psi /\
      length psi = g_size g /\
      dot w psi =
        sumn (mrows (gx_features x)) (fun i => sumn (g_states g) (fun s =>
          get1 um (i * g_states g + s) * mget U i s)) +
        sumn n_pw (fun e => sumn (g_states g) (fun s => sumn (g_states g) (fun t =>
          get1 pw ((e * g_states g + s) * g_states g + t) * mget P s t))).
Proof. exact graphcrf_relaxed_score_linear. Qed.

(** C02 for GraphCRF: weights of another size, or features of another width, are rejected. *)
Theorem C02_graphcrf_size_checks :
  forall (g : graph_crf) (x : graph_x) (w : list Qc) (y : label),
    (length w <> g_size g -> g_unary g x w = Err ValueError /\ g_pairwise g x w = Err ValueError) /\
    (mcols (gx_features x) <> g_features g -> g_joint_feature g x y = Err ValueError) /\
    (forall yl, length yl <> mrows (gx_features x) -> y = Discrete yl ->
       g_joint_feature g x y = Err ValueError).
Proof. exact graphcrf_size_checks. Qed.

(** C10. compute_energy is the score; one shared table behaves like the same table repeated. *)
Theorem C10_compute_energy :
  forall (U m : mat) (d : list (list (list Qc))) (edges : list (nat * nat)) (y : list nat) (n k : nat),
    mrows U = n -> mcols U = k ->
    graph_edges n edges -> labelling n k y ->
    (mrows m = k -> mcols m = k ->
       compute_energy U (Pw2 m) edges y = Ok (score n edges (mget U) (fun _ => mget m) (lab y)) /\
       compute_energy U (Pw3 (length edges) k k (repeat (mdat m) (length edges))) edges y =
         compute_energy U (Pw2 m) edges y) /\
    (length d = length edges ->
       compute_energy U (Pw3 (length edges) k k d) edges y =
         Ok (score n edges (mget U) (fun e => get2 (nth e d [])) (lab y))).
Proof. exact compute_energy_correct. Qed.

Theorem C10_compute_energy_rejects :
  forall (U : mat) (p : pairwise) (edges : list (nat * nat)) (y : list nat),
    (match p with
     | Pw2 m => mrows m <> mcols U \/ mcols m <> mcols U
     | Pw3 n0 n1 n2 _ => n0 <> length edges \/ n1 <> mcols U \/ n2 <> mcols U
     end -> compute_energy U p edges y = Err ValueError).
Proof. exact compute_energy_rejects. Qed.

(** C11. *)
Theorem C11_expand_sym_symmetric :
  forall (k : nat) (v : list Qc), length v = (k * (k + 1) / 2)%nat ->
    exists m, expand_sym v = Ok m /\ mat_ok m /\ mrows m = k /\ mcols m = k /\
      forall i j, (i < k)%nat -> (j < k)%nat ->
        mget m i j = mget m j i /\ mget m i j = get1 v (tri_index i j).
Proof. exact expand_sym_symmetric. Qed.

Theorem C11_expand_sym_rejects :
  forall (v : list Qc), (forall k, length v <> (k * (k + 1) / 2)%nat) -> expand_sym v = Err ValueError.
Proof. exact expand_sym_rejects. Qed.

Theorem C11_compress_expand_roundtrip :
  forall (k : nat) (v : list Qc), length v = (k * (k + 1) / 2)%nat ->
    exists m, expand_sym v = Ok m /\ compress_sym m false = Ok v.
Proof. exact compress_expand_false. Qed.

Theorem C11_expand_compress_roundtrip :
  forall (k : nat) (m : mat), mat_ok m -> mrows m = k -> mcols m = k ->
    (forall i j, (i < k)%nat -> (j < k)%nat -> mget m i j = mget m j i) ->
    exists v, compress_sym m false = Ok v /\ length v = (k * (k + 1) / 2)%nat /\ expand_sym v = Ok m.
Proof. exact expand_compress_symmetric. Qed.

Theorem C11_compress_is_adjoint_of_expand :
  forall (k : nat) (v : list Qc) (m : mat),
    length v = (k * (k + 1) / 2)%nat -> mrows m = k -> mcols m = k ->
    exists e c, expand_sym v = Ok e /\ compress_sym m true = Ok c /\ length c = length v /\
      dot v c = sumn k (fun i => sumn k (fun j => mget e i j * mget m i j)).
Proof. exact compress_adjoint. Qed.

(** With the default make_symmetric=True, compressing an expanded vector doubles every
    off-diagonal entry. *)
Theorem C11_default_compress_doubles :
  forall (k : nat) (v : list Qc), length v = (k * (k + 1) / 2)%nat ->
    exists m v', expand_sym v = Ok m /\ compress_sym m true = Ok v' /\ length v' = length v /\
      forall i j, (i < k)%nat -> (j <= i)%nat ->
        get1 v' (i * (i + 1) / 2 + j) =
        if (i =? j)%nat then get1 v (i * (i + 1) / 2 + j)
        else get1 v (i * (i + 1) / 2 + j) + get1 v (i * (i + 1) / 2 + j).
Proof. exact compress_expand_true. Qed.
Theorem C11_default_roundtrip_refuted :
  exists v m, expand_sym v = Ok m /\ compress_sym m true <> Ok v.
Proof. exact default_roundtrip_refuted. Qed.

(** ** Concrete cases *)
Definition ex_g := GraphCRF 2 2 false.
Definition ex_x := GraphX (Mat 3 2 [[1; ofZ 2]; [0; ofZ (-1)]; [ofZ 3; 1]]) [(0, 1); (1, 2); (2, 0); (2, 2)]%nat.
Definition ex_w : list Qc := map ofZ [1; 2; 3; 4; 5; 6; 7]%Z.
Definition ex_y : list nat := [1; 0; 1]%nat.

Example C01_hypotheses_met :
  mat_ok (gx_features ex_x) /\ mcols (gx_features ex_x) = g_features ex_g /\
  graph_edges (mrows (gx_features ex_x)) (gx_edges ex_x) /\ length ex_w = g_size ex_g /\
  labelling (mrows (gx_features ex_x)) (g_states ex_g) ex_y.
Proof.
  split. apply mat_okb_ok; reflexivity. split. reflexivity.
  split. repeat constructor. split. reflexivity. split. reflexivity. repeat constructor.
Qed.
Example C01_value :
  match g_joint_feature ex_g ex_x (Discrete ex_y) with
  | Ok psi => map this psi = map this (map ofZ [0; -1; 4; 3; 0; 2; 2]%Z) /\ this (dot ex_w psi) = this (ofZ 48)
  | Err _ => False
  end.
Proof. vm_compute. split; reflexivity. Qed.
Example C01_relaxed_hypotheses_met :
  length (map ofZ [1; 0; 0; 1; 1; 0]%Z) = (mrows (gx_features ex_x) * g_states ex_g)%nat /\
  length (map ofZ [1; 0; 0; 0; 0; 0; 1; 0]%Z) = (2 * (g_states ex_g * g_states ex_g))%nat.
Proof. split; reflexivity. Qed.
Example C02_hypotheses_met : length [1] <> g_size ex_g /\ mcols (Mat 3 1 [[1]; [1]; [1]]) <> g_features ex_g.
Proof. split; discriminate. Qed.
Example C10_hypotheses_met :
  let d := repeat [[1; 0]; [0; ofZ 2]] (length (gx_edges ex_x)) in
  length d = length (gx_edges ex_x) /\ graph_edges 3 (gx_edges ex_x) /\ labelling 3 2 ex_y.
Proof. split. reflexivity. split; repeat constructor. Qed.
Example C11_hypotheses_met :
  length (map ofZ [1; 2; 3; 4; 5; 6]%Z) = (3 * (3 + 1) / 2)%nat.
Proof. reflexivity. Qed.
Example C11_reject_hypothesis_met : forall k, length [1; 0] <> (k * (k + 1) / 2)%nat.
Proof. exact (fun k => not_trinum_2 k). Qed.

Print Assumptions C01_graphcrf_score_linear.
Print Assumptions C01_graphcrf_relaxed_score_linear.
Print Assumptions C02_graphcrf_size_checks.
Print Assumptions C10_compute_energy.
Print Assumptions C10_compute_energy_rejects.
Print Assumptions C11_expand_sym_symmetric.
Print Assumptions C11_expand_sym_rejects.
Print Assumptions C11_compress_expand_roundtrip.
Print Assumptions C11_expand_compress_roundtrip.
Print Assumptions C11_compress_is_adjoint_of_expand.
Print Assumptions C11_default_compress_doubles.
Print Assumptions C11_default_roundtrip_refuted.
