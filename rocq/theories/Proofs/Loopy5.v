(** Stopping by tolerance, and concrete graphs. *)
From Verif Require Import Model.MaxProd Spec.LoopySpec Proofs.Arrays Proofs.EnergyProofs Proofs.MaxProdProofs Proofs.SearchProofs
  Proofs.Loopy Proofs.Loopy2 Proofs.Loopy3.

Lemma loopy_inference_tol n k U p edges m damping tol y : mrows U = n -> mcols U = k -> (0 < k)%nat -> pw_shape p (length edges) k ->
  graph_edges n edges -> edges <> [] -> is_chain edges n = false -> ~ acyclic edges -> 0 <= damping -> damping < 1 ->
  inference_max_product U p edges (S m) damping tol = Ok y ->
  let d := default_tol / (1 - damping) in
  forall v st, validate_params U p (length edges) = Ok v ->
    loopy_iter (S m) k U damping default_tol edges (snd v) (Loopy (fun _ => vzero k) (fun _ => vzero k) (fun _ => vzero k) 0) = Ok st ->
    lp_diff st < default_tol -> decided n k edges (mget U) (lp_fwd st) (lp_bwd st) (d + d) y ->
    forall y', labelling n k y' ->
      (one_cycle_each edges (differ y y') ->
        score n edges (mget U) (pw_table p) (lab y') <=
        score n edges (mget U) (pw_table p) (lab y) + (d + d) * ofN (touching edges (differ y y'))) /\
      (acyclic (inner edges (differ y y')) -> y' <> y ->
        score n edges (mget U) (pw_table p) (lab y') + (d + d) <
        score n edges (mget U) (pw_table p) (lab y) + (d + d) * ofN (touching edges (differ y y'))).
Proof.
  intros Hr Hc Hk Hp Hg Hne Hch NA H0 H1 Ey d v st Ev Es Hd HD y' Ly.
  destruct (loopy_inference n k U p edges m damping tol Hr Hc Hk Hp Hg Hne Hch NA H0 H1) as [v' [st' [y2 [Ev' [Es' [_ [SS _]]]]]]].
  assert (v' = v) by congruence. subst v'. assert (st' = st) by congruence. subst st'.
  destruct (inverse_ok damping H0 H1) as [_ R1].
  assert (R0 : 0 <= / (1 - damping)) by (clear - R1; qclra).
  assert (LE : lp_diff st / (1 - damping) <= d). { unfold d, Qcdiv. apply Qcmult_le_compat_r; [apply Qclt_le_weak, Hd|exact R0]. }
  assert (D0 : 0 <= d). { unfold d, Qcdiv. replace 0 with (0 * / (1 - damping)) by ring. apply Qcmult_le_compat_r; [discriminate|exact R0]. }
  assert (SD : forall e, (e < length edges)%nat -> settled k edges (mget U) (pw_table p) (lp_fwd st) (lp_bwd st) d e).
  { intros e He. destruct (SS e He) as [c0 [c1 [A1 [A2 [B1 B2]]]]]. exists c0, c1. clearbody d. revert LE A1 A2 B1 B2. generalize (lp_diff st / (1 - damping)). intros q LE A1 A2 B1 B2.
    split; [|split; [|split]].
    - intros s t Hs Ht. specialize (A1 s t Hs Ht). clear - A1 LE. qclra.
    - intros t Ht. destruct (A2 t Ht) as [s [Hs L]]. exists s. split; [exact Hs|]. clear - L LE. qclra.
    - intros s t Hs Ht. specialize (B1 s t Hs Ht). clear - B1 LE. qclra.
    - intros t Ht. destruct (B2 t Ht) as [s [Hs L]]. exists s. split; [exact Hs|]. clear - L LE. qclra. }
  split.
  - intro OC. exact (region_best n k edges (mget U) (pw_table p) (lp_fwd st) (lp_bwd st) d y Hk Hg D0 SD HD y' Ly OC).
  - intros AC Ny. exact (region_acyclic n k edges (mget U) (pw_table p) (lp_fwd st) (lp_bwd st) d y y' Hk Hg D0 SD HD Ly AC Ny).
Qed.

(** ** a check for [decided] *)
Definition decidedb (n k : nat) (edges : list (nat * nat)) (U : mat) (st : loopy) (g : Qc) (y : list nat) : bool :=
  (length y =? n)%nat && forallb (fun s => s <? k)%nat y &&
  forallb (fun v => forallb (fun s => (s =? lab y v)%nat ||
     Qcltb (loopy_belief edges (mget U) (lp_fwd st) (lp_bwd st) v s + g) (loopy_belief edges (mget U) (lp_fwd st) (lp_bwd st) v (lab y v))) (seq 0 k)) (seq 0 n).
Lemma decidedb_ok n k edges U st g y : decidedb n k edges U st g y = true -> decided n k edges (mget U) (lp_fwd st) (lp_bwd st) g y.
Proof.
  intro H. unfold decidedb in H. apply andb_prop in H. destruct H as [H H3]. apply andb_prop in H. destruct H as [H1 H2].
  split; [split|].
  - apply Nat.eqb_eq, H1.
  - apply Forall_forall. intros s Hs. rewrite forallb_forall in H2. apply Nat.ltb_lt, H2, Hs.
  - intros v s Hv Hs N. rewrite forallb_forall in H3. assert (Q := H3 v ltac:(apply in_seq; lia)). rewrite forallb_forall in Q.
    assert (Q2 := Q s ltac:(apply in_seq; lia)). apply orb_prop in Q2. destruct Q2 as [Q2|Q2].
    + apply Nat.eqb_eq in Q2. contradiction.
    + destruct (Qcltb_spec (loopy_belief edges (mget U) (lp_fwd st) (lp_bwd st) v s + g) (loopy_belief edges (mget U) (lp_fwd st) (lp_bwd st) v (lab y v))); [assumption|discriminate].
Qed.

Definition ex46_start : loopy := Loopy (fun _ => vzero 2) (fun _ => vzero 2) (fun _ => vzero 2) 0.
Definition ex46_final (m : nat) (U : mat) (edges : list (nat * nat)) (pws : list (list (list Qc))) : loopy :=
  match loopy_iter m 2 U (Q2Qc (1 # 2)) default_tol edges pws ex46_start with Ok st => st | Err _ => ex46_start end.
Lemma ex46_run m U edges pws : loopy_iter m 2 U (Q2Qc (1 # 2)) default_tol edges pws ex46_start = Ok (ex46_final m U edges pws).
Proof.
  destruct (loopy_iter_ok 2 U (Q2Qc (1 # 2)) default_tol edges pws ltac:(lia) m ex46_start (loopy_init 2 edges)) as [st [E _]].
  unfold ex46_final. rewrite E. reflexivity.
Qed.

(** A triangle: one cycle. *)
Definition ex46_U : mat := Mat 3 2 [[0; 1]; [0; ofZ 2]; [0; ofZ (-2)]].
Definition ex46_edges : list (nat * nat) := [(0, 1); (1, 2); (2, 0)]%nat.
Definition ex46_pws : list (list (list Qc)) := [[[0; 0]; [0; ofZ 2]]; [[0; 0]; [0; ofZ (-2)]]; [[0; 0]; [0; 1]]].
(** The complete graph on four nodes: more than one cycle. *)
Definition ex46_K4_U : mat := Mat 4 2 [[0; ofZ 2]; [0; ofZ (-1)]; [0; ofZ (-3)]; [0; ofZ (-1)]].
Definition ex46_K4 : list (nat * nat) := [(0, 1); (1, 2); (2, 3); (3, 0); (0, 2); (1, 3)]%nat.
Definition ex46_K4_pws : list (list (list Qc)) :=
  map (fun q => [[0; 0]; [0; ofZ q]]) [(-4)%Z; 2%Z; 3%Z; (-2)%Z; (-4)%Z; 4%Z].

Definition ex46_gap : Qc := default_tol / (1 - Q2Qc (1 # 2)).
Lemma K4_wrong :
  lp_diff (ex46_final 30 ex46_K4_U ex46_K4 ex46_K4_pws) < default_tol /\
  iterative_max_product ex46_K4_U ex46_K4_pws ex46_K4 30 (Q2Qc (1 # 2)) default_tol = Ok [1; 0; 0; 0]%nat /\
  decided 4 2 ex46_K4 (mget ex46_K4_U) (lp_fwd (ex46_final 30 ex46_K4_U ex46_K4 ex46_K4_pws)) (lp_bwd (ex46_final 30 ex46_K4_U ex46_K4 ex46_K4_pws))
    1 [1; 0; 0; 0]%nat /\
  score 4 ex46_K4 (mget ex46_K4_U) (fun e => get2 (nth e ex46_K4_pws [])) (lab [1; 0; 0; 0]%nat) + ofZ 2 =
  score 4 ex46_K4 (mget ex46_K4_U) (fun e => get2 (nth e ex46_K4_pws [])) (lab [0; 1; 1; 1]%nat).
Proof.
  split; [|split; [|split]].
  - vm_compute. reflexivity.
  - vm_compute. reflexivity.
  - apply decidedb_ok. vm_compute. reflexivity.
  - apply Qc_is_canon. vm_compute. reflexivity.
Qed.
