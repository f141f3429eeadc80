(** C85: max-product on graphs with cycles -- what a converged run guarantees, and when runs do
    not converge. *)
From Verif Require Import Model.MaxProd Spec.LoopySpec Proofs.Arrays Proofs.SearchProofs Proofs.MaxProdProofs
  Proofs.Loopy Proofs.Loopy2 Proofs.Loopy3 Proofs.Loopy4 Proofs.Loopy5.

(** After every run with at least one iteration, all messages satisfy the max-product equations
    up to the total change of the last sweep divided by (1 - damping). *)
Theorem C85_settles U pws edges n k m damping tol :
  mrows U = n -> mcols U = k -> (0 < k)%nat -> graph_edges n edges -> length pws = length edges -> 0 <= damping -> damping < 1 ->
  exists st y,
    loopy_iter (S m) k U damping tol edges pws (Loopy (fun _ => vzero k) (fun _ => vzero k) (fun _ => vzero k) 0) = Ok st /\
    iterative_max_product U pws edges (S m) damping tol = Ok y /\ labelling n k y /\ 0 <= lp_diff st /\
    (forall v s, (v < n)%nat -> (s < k)%nat ->
      loopy_belief edges (mget U) (lp_fwd st) (lp_bwd st) v s <= loopy_belief edges (mget U) (lp_fwd st) (lp_bwd st) v (lab y v)) /\
    (forall e, (e < length edges)%nat ->
       settled k edges (mget U) (fun e => get2 (nth e pws [])) (lp_fwd st) (lp_bwd st) (lp_diff st / (1 - damping)) e).
Proof. exact (loopy_settles U pws edges n k m damping tol). Qed.

(** At such messages no labelling that differs only in a region with at most one cycle per
    component is better, up to 2 d for every edge that touches the region. *)
Theorem C85_locally_best n k edges U P fwd bwd d y : (0 < k)%nat -> graph_edges n edges -> 0 <= d ->
  (forall e, (e < length edges)%nat -> settled k edges U P fwd bwd d e) -> decided n k edges U fwd bwd (d + d) y ->
  forall y', labelling n k y' -> one_cycle_each edges (differ y y') ->
  score n edges U P (lab y') <= score n edges U P (lab y) + (d + d) * ofN (touching edges (differ y y')).
Proof. exact (region_best n k edges U P fwd bwd d y). Qed.
(** If the region has no cycle the change makes things worse. *)
Theorem C85_acyclic_change n k edges U P fwd bwd d y y' : (0 < k)%nat -> graph_edges n edges -> 0 <= d ->
  (forall e, (e < length edges)%nat -> settled k edges U P fwd bwd d e) -> decided n k edges U fwd bwd (d + d) y ->
  labelling n k y' -> acyclic (inner edges (differ y y')) -> y' <> y ->
  score n edges U P (lab y') + (d + d) < score n edges U P (lab y) + (d + d) * ofN (touching edges (differ y y')).
Proof. exact (region_acyclic n k edges U P fwd bwd d y y'). Qed.
(** On graphs with at most one cycle per component this covers all labellings. *)
Theorem C85_whole_graph n k edges U P fwd bwd d y : (0 < k)%nat -> graph_edges n edges -> 0 <= d ->
  (forall e, (e < length edges)%nat -> settled k edges U P fwd bwd d e) -> decided n k edges U fwd bwd (d + d) y ->
  one_cycle_each edges (fun _ => true) ->
  forall y', labelling n k y' -> score n edges U P (lab y') <= score n edges U P (lab y) + (d + d) * ofN (length edges).
Proof. exact (whole_graph n k edges U P fwd bwd d y). Qed.
(** Regions to which this applies: without cycles; without cycles up to one edge; and graphs in
    which no node is the first (or the second) end of two edges. *)
Theorem C85_one_cycle edges D :
  (acyclic (inner edges D) -> one_cycle_each edges D) /\
  (forall E1 a b E2, edges = E1 ++ (a, b) :: E2 -> acyclic (inner (E1 ++ E2) D) -> one_cycle_each edges D) /\
  (NoDup (map fst edges) \/ NoDup (map snd edges) -> one_cycle_each edges D).
Proof.
  split; [apply acyclic_one_cycle|]. split; [|apply NoDup_one_cycle].
  intros E1 a b E2 ->. apply unicyclic_one_cycle.
Qed.

(** The whole inference call on a graph with a cycle. *)
Theorem C85_inference n k U p edges m damping tol : mrows U = n -> mcols U = k -> (0 < k)%nat -> pw_shape p (length edges) k ->
  graph_edges n edges -> edges <> [] -> is_chain edges n = false -> ~ acyclic edges -> 0 <= damping -> damping < 1 ->
  exists v st y,
    validate_params U p (length edges) = Ok v /\
    loopy_iter (S m) k U damping default_tol edges (snd v) (Loopy (fun _ => vzero k) (fun _ => vzero k) (fun _ => vzero k) 0) = Ok st /\
    inference_max_product U p edges (S m) damping tol = Ok y /\
    let d := lp_diff st / (1 - damping) in
    (forall e, (e < length edges)%nat -> settled k edges (mget U) (pw_table p) (lp_fwd st) (lp_bwd st) d e) /\
    (decided n k edges (mget U) (lp_fwd st) (lp_bwd st) (d + d) y ->
     forall y', labelling n k y' -> one_cycle_each edges (differ y y') ->
       score n edges (mget U) (pw_table p) (lab y') <=
       score n edges (mget U) (pw_table p) (lab y) + (d + d) * ofN (touching edges (differ y y'))).
Proof. exact (loopy_inference n k U p edges m damping tol). Qed.
(** When the call stops because the messages changed by less than the tolerance. *)
Theorem C85_inference_converged n k U p edges m damping tol y : mrows U = n -> mcols U = k -> (0 < k)%nat -> pw_shape p (length edges) k ->
  graph_edges n edges -> edges <> [] -> is_chain edges n = false -> ~ acyclic edges -> 0 <= damping -> damping < 1 ->
  inference_max_product U p edges (S m) damping tol = Ok y ->
  let d := default_tol / (1 - damping) in
  forall v st, validate_params U p (length edges) = Ok v ->
    loopy_iter (S m) k U damping default_tol edges (snd v) (Loopy (fun _ => vzero k) (fun _ => vzero k) (fun _ => vzero k) 0) = Ok st ->
    lp_diff st < default_tol -> decided n k edges (mget U) (lp_fwd st) (lp_bwd st) (d + d) y ->
    forall y', labelling n k y' ->
      (one_cycle_each edges (differ y y') ->
        score n edges (mget U) (pw_table p) (lab y') <=
        score n edges (mget U) (pw_table p) (lab y) + (d + d) * ofN (touching edges (differ y y'))) /\
      (acyclic (inner edges (differ y y')) -> y' <> y ->
        score n edges (mget U) (pw_table p) (lab y') + (d + d) <
        score n edges (mget U) (pw_table p) (lab y) + (d + d) * ofN (touching edges (differ y y'))).
Proof. exact (loopy_inference_tol n k U p edges m damping tol y). Qed.

(** With more cycles a converged run with clear decisions (every node prefers its label by more
    than 1) can be wrong by 2. *)
Theorem C85_two_cycles_refuted : exists U pws edges st y y',
  loopy_iter 30 2 U (Q2Qc (1 # 2)) default_tol edges pws (Loopy (fun _ => vzero 2) (fun _ => vzero 2) (fun _ => vzero 2) 0) = Ok st /\
  lp_diff st < default_tol /\
  inference_max_product U (Pw3 (length edges) 2 2 pws) edges 30 (Q2Qc (1 # 2)) default_tol = Ok y /\
  decided 4 2 edges (mget U) (lp_fwd st) (lp_bwd st) 1 y /\ labelling 4 2 y' /\
  score 4 edges (mget U) (fun e => get2 (nth e pws [])) (lab y) + ofZ 2 = score 4 edges (mget U) (fun e => get2 (nth e pws [])) (lab y').
Proof.
  exists ex46_K4_U, ex46_K4_pws, ex46_K4, (ex46_final 30 ex46_K4_U ex46_K4 ex46_K4_pws), [1; 0; 0; 0]%nat, [0; 1; 1; 1]%nat.
  destruct K4_wrong as [A [_ [C D]]]. split; [apply ex46_run|]. split; [exact A|]. split; [vm_compute; reflexivity|].
  split; [exact C|]. split; [|exact D]. split; [reflexivity|]. repeat constructor.
Qed.

(** Line 156 subtracts the maximum of the old message.  If every node that is the second end of
    some edge is the first end of two edges, messages grow by (1 - damping) in every sweep; the
    run never stops early. *)
Theorem C85_messages_grow U pws edges damping tol m : 1 <= damping + damping -> damping < 1 -> tol <= 1 - damping ->
  length pws = length edges -> edges <> [] ->
  (forall e, (e < length edges)%nat -> 1 <= mget U (snd (nth e edges (0, 0)%nat)) 0 + get2 (nth e pws []) 0 0) ->
  (forall e, (e < length edges)%nat -> exists i j, i <> j /\ (i < length edges)%nat /\ (j < length edges)%nat /\
     fst (nth i edges (0, 0)%nat) = snd (nth e edges (0, 0)%nat) /\ fst (nth j edges (0, 0)%nat) = snd (nth e edges (0, 0)%nat)) ->
  exists st, loopy_iter (S m) 1 U damping tol edges pws (Loopy (fun _ => vzero 1) (fun _ => vzero 1) (fun _ => vzero 1) 0) = Ok st /\
    1 - damping <= lp_diff st /\ forall e, (e < length edges)%nat -> ofN (S m) * (1 - damping) <= get1 (lp_bwd st e) 0.
Proof. exact (messages_grow U pws edges damping tol m). Qed.
(** Without damping, an edge whose second end is a leaf never comes to rest. *)
Theorem C85_undamped_flips k U pws edges e0 s0 t0 tol m : (0 < k)%nat -> length pws = length edges -> (e0 < length edges)%nat ->
  fst (nth e0 edges (0, 0)%nat) <> snd (nth e0 edges (0, 0)%nat) ->
  (forall i, (i < length edges)%nat -> i <> e0 -> fst (nth i edges (0, 0)%nat) <> snd (nth e0 edges (0, 0)%nat) /\ snd (nth i edges (0, 0)%nat) <> snd (nth e0 edges (0, 0)%nat)) ->
  (s0 < k)%nat -> (t0 < k)%nat ->
  (forall s t, (s < k)%nat -> (t < k)%nat -> mget U (snd (nth e0 edges (0, 0)%nat)) t + get2 (nth e0 pws []) s t <=
                                           mget U (snd (nth e0 edges (0, 0)%nat)) t0 + get2 (nth e0 pws []) s0 t0) ->
  exists st, loopy_iter (S m) k U 0 tol edges pws (Loopy (fun _ => vzero k) (fun _ => vzero k) (fun _ => vzero k) 0) = Ok st /\
    Qcabs (mget U (snd (nth e0 edges (0, 0)%nat)) t0 + get2 (nth e0 pws []) s0 t0) <= lp_diff st.
Proof. exact (undamped_flips k U pws edges e0 s0 t0 tol m). Qed.

(** ** Concrete cases *)
(** A triangle on which the run converges with clear decisions. *)
Example C85_hypotheses_met :
  is_chain ex46_edges 3 = false /\ is_forest ex46_edges (Some 3%nat) = Ok false /\ pw_shape (Pw3 3 2 2 ex46_pws) 3 2 /\
  lp_diff (ex46_final 40 ex46_U ex46_edges ex46_pws) < default_tol /\
  inference_max_product ex46_U (Pw3 3 2 2 ex46_pws) ex46_edges 40 (Q2Qc (1 # 2)) default_tol = Ok [1; 1; 0]%nat /\
  decided 3 2 ex46_edges (mget ex46_U) (lp_fwd (ex46_final 40 ex46_U ex46_edges ex46_pws)) (lp_bwd (ex46_final 40 ex46_U ex46_edges ex46_pws))
    (ex46_gap + ex46_gap) [1; 1; 0]%nat /\
  one_cycle_each ex46_edges (fun _ => true).
Proof.
  split; [reflexivity|]. split; [vm_compute; reflexivity|]. split; [repeat split|].
  split; [vm_compute; reflexivity|]. split; [vm_compute; reflexivity|]. split; [apply decidedb_ok; vm_compute; reflexivity|].
  apply NoDup_one_cycle. left. repeat constructor; simpl; lia.
Qed.
(** The complete graph on three nodes with every edge in both directions: messages grow. *)
Definition ex46_both : list (nat * nat) := [(0, 1); (1, 2); (2, 0); (1, 0); (2, 1); (0, 2)]%nat.
Example C85_growth_met :
  (forall e, (e < length ex46_both)%nat -> exists i j, i <> j /\ (i < length ex46_both)%nat /\ (j < length ex46_both)%nat /\
     fst (nth i ex46_both (0, 0)%nat) = snd (nth e ex46_both (0, 0)%nat) /\ fst (nth j ex46_both (0, 0)%nat) = snd (nth e ex46_both (0, 0)%nat)) /\
  (1 <= Q2Qc (1 # 2) + Q2Qc (1 # 2)) /\ default_tol <= 1 - Q2Qc (1 # 2).
Proof.
  split; [|split; discriminate]. intros e He.
  assert (T : forall v, (v < 3)%nat -> exists i j, i <> j /\ (i < length ex46_both)%nat /\ (j < length ex46_both)%nat /\
     fst (nth i ex46_both (0, 0)%nat) = v /\ fst (nth j ex46_both (0, 0)%nat) = v).
  { intros [|[|[|v]]] Hv; [exists 0%nat, 5%nat|exists 1%nat, 3%nat|exists 2%nat, 4%nat|lia]; repeat split; simpl; lia. }
  apply T. do 6 (destruct e as [|e]; [simpl; lia|]). simpl in He. lia.
Qed.
Print Assumptions C85_settles.
Print Assumptions C85_locally_best.
Print Assumptions C85_acyclic_change.
Print Assumptions C85_whole_graph.
Print Assumptions C85_one_cycle.
Print Assumptions C85_inference.
Print Assumptions C85_inference_converged.
Print Assumptions C85_two_cycles_refuted.
Print Assumptions C85_messages_grow.
Print Assumptions C85_undamped_flips.
