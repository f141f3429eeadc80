(** Model of pystruct/inference/maxprod.py *)
From Verif Require Export Model.Common Model.Viterbi Model.GraphFunctions.

(** [np.all(col == np.arange(start, start + m))]: equal lengths compare entry by entry,
    length 1 is broadcast, other shapes compare unequal as a whole. *)
Definition all_eq_arange (col : list nat) (start m : nat) : bool :=
  if (length col =? m)%nat then forallb (fun p => fst p =? snd p)%nat (combine col (seq start m))
  else if (m =? 1)%nat then forallb (fun c => c =? start)%nat col
  else if (length col =? 1)%nat then forallb (fun v => nth 0 col O =? v)%nat (seq start m)
  else false.

(** [is_chain], maxprod.py 16-19 *)
Definition is_chain (edges : list (nat * nat)) (n_vertices : nat) : bool :=
  all_eq_arange (map fst edges) 0 (n_vertices - 1) && all_eq_arange (map snd edges) 1 (n_vertices - 1).

(** [np.max(f, axis=1)] of an n x m table *)
Definition max_rows (n m : nat) (f : nat -> nat -> Qc) : res (list Qc) :=
  mapM (fun s => np_max (tab1 m (f s))) (seq 0 n).

(** message -= message.max() *)
Definition sub_max (msg : list Qc) (mx : Qc) : list Qc := map (fun a => a - mx) msg.

(** pw or pw.T of an entry, see [adjacency] *)
Definition entry_pw (pws : list (list (list Qc))) (q : nat * bool) (s t : nat) : Qc :=
  let '(e, o) := q in if o then get2 (nth e pws []) t s else get2 (nth e pws []) s t.

(** Messages from leaves to root, maxprod.py 105-111; [nodes] is traversal[::-1]. *)
Fixpoint tree_backward (k : nat) (U : mat) (pws : list (list (list Qc)))
         (par : nat -> option (nat * (nat * bool))) (nodes : list nat) (mb : nat -> list Qc)
  : res (nat -> list Qc) :=
  match nodes with
  | [] => Ok mb
  | v :: r =>
      match par v with
      | None => tree_backward k U pws par r mb
      | Some (p, q) =>
          let! msg := max_rows k k (fun s t => get1 (mb v) t + mget U v t + entry_pw pws q s t) in
          let! mx := np_max msg in
          tree_backward k U pws par r (upd mb p (vadd (mb p) (sub_max msg mx)))
      end
  end.

(** Messages from root back to leaves, maxprod.py 113-123; [nodes] is traversal. *)
Fixpoint tree_forward (k : nat) (U : mat) (pws : list (list (list Qc)))
         (par : nat -> option (nat * (nat * bool))) (mb : nat -> list Qc) (nodes : list nat)
         (mf : nat -> list Qc) : res (nat -> list Qc) :=
  match nodes with
  | [] => Ok mf
  | v :: r =>
      match par v with
      | None => tree_forward k U pws par mb r mf
      | Some (p, q) =>
          let! back := max_rows k k (fun s t => get1 (mb v) t + mget U v t + entry_pw pws q s t) in
          let! msg := max_rows k k (fun t s =>
              get1 (mf p) s + mget U p s + entry_pw pws q s t + (get1 (mb p) s - get1 back s)) in
          let! mx := np_max msg in
          tree_forward k U pws par mb r (upd mf v (vadd (mf v) (sub_max msg mx)))
      end
  end.

(** [tree_max_product], maxprod.py 65-125 *)
Definition tree_max_product (U : mat) (pws : list (list (list Qc))) (edges : list (nat * nat)) : res (list nat) :=
  let n := mrows U in
  let k := mcols U in
  let! _ := ensure (forallb (fun e => (fst e <? n) && (snd e <? n))%nat edges) IndexError in
  let! o := search n pop_first edges in
  match o with
  | None => Err ValueError                            (* "Graph not a tree" *)
  | Some st =>
      let par := st_parent st in
      let! mb := tree_backward k U pws par (st_traversal st) (fun _ => vzero k) in
      let! mf := tree_forward k U pws par mb (rev (st_traversal st)) (fun _ => vzero k) in
      mapM (fun v => np_argmax (tab1 k (fun s => mget U v s + get1 (mf v) s + get1 (mb v) s))) (seq 0 n)
  end.

(** ** Loopy message passing *)

(** messages[e, 0], messages[e, 1], all_incoming, diff *)
Record loopy := Loopy {
  lp_fwd : nat -> list Qc;
  lp_bwd : nat -> list Qc;
  lp_in : nat -> list Qc;
  lp_diff : Qc }.

Definition l1norm (v : list Qc) : Qc := lsum (map Qcabs v).

(** damping * old_message + (1 - damping) * new_message *)
Definition damp (damping : Qc) (old new : list Qc) : list Qc :=
  vadd (vscale damping old) (vscale (1 - damping) new).

(** Body of the loop over edges, maxprod.py 137-161, for edge number [e] = (a, b). *)
Definition loopy_edge (k : nat) (U : mat) (damping : Qc) (e a b : nat) (pw : list (list Qc)) (st : loopy) : res loopy :=
  (* message from edge[0] to edge[1] *)
  let old0 := lp_fwd st e in
  let! m0 := max_rows k k (fun t s => get1 (lp_in st a) s + get2 pw s t + mget U a s - get1 (lp_bwd st e) s) in
  let! mx0 := np_max m0 in
  let new0 := damp damping old0 (sub_max m0 mx0) in
  let u0 := vsub new0 old0 in
  let in1 := upd (lp_in st) b (vadd (lp_in st b) u0) in
  (* message from edge[1] to edge[0] *)
  let old1 := lp_bwd st e in
  let! m1 := max_rows k k (fun s t => get1 (in1 b) t + get2 pw s t + mget U b t - get1 new0 t) in
  let! mx1 := np_max old1 in                           (* line 156: the old message *)
  let new1 := damp damping old1 (sub_max m1 mx1) in
  let u1 := vsub new1 old1 in
  let in2 := upd in1 a (vadd (in1 a) u1) in
  Ok (Loopy (upd (lp_fwd st) e new0) (upd (lp_bwd st) e new1) in2 (lp_diff st + l1norm u0 + l1norm u1)).

Fixpoint loopy_edges (k : nat) (U : mat) (damping : Qc) (e : nat) (edges : list (nat * nat))
         (pws : list (list (list Qc))) (st : loopy) : res loopy :=
  match edges, pws with
  | (a, b) :: es, pw :: ps =>
      let! st' := loopy_edge k U damping e a b pw st in
      loopy_edges k U damping (S e) es ps st'
  | _, _ => Ok st
  end.

(** for i in range(max_iter), maxprod.py 134-163 *)
Fixpoint loopy_iter (max_iter k : nat) (U : mat) (damping tol : Qc) (edges : list (nat * nat))
         (pws : list (list (list Qc))) (st : loopy) : res loopy :=
  match max_iter with
  | O => Ok st
  | S m =>
      let! st' := loopy_edges k U damping 0 edges pws (Loopy (lp_fwd st) (lp_bwd st) (lp_in st) 0) in
      if Qcltb (lp_diff st') tol then Ok st' else loopy_iter m k U damping tol edges pws st'
  end.

(** [iterative_max_product], maxprod.py 128-164 *)
Definition iterative_max_product (U : mat) (pws : list (list (list Qc))) (edges : list (nat * nat))
           (max_iter : nat) (damping tol : Qc) : res (list nat) :=
  let n := mrows U in
  let k := mcols U in
  let! _ := ensure ((max_iter =? 0)%nat || forallb (fun e => (fst e <? n) && (snd e <? n))%nat edges) IndexError in
  let! st := loopy_iter max_iter k U damping tol edges pws
               (Loopy (fun _ => vzero k) (fun _ => vzero k) (fun _ => vzero k) 0) in
  mapM (fun v => np_argmax (tab1 k (fun s => get1 (lp_in st v) s + mget U v s))) (seq 0 n).

(** [inference_max_product], maxprod.py 22-62.  The parameter tol is not passed on: the
    loopy algorithm always uses its own default 1e-5. *)
Definition default_tol : Qc := Q2Qc (1 # 100000).
Definition inference_max_product (U : mat) (p : pairwise) (edges : list (nat * nat))
           (max_iter : nat) (damping tol : Qc) : res (list nat) :=
  let! v := validate_params U p (length edges) in
  let pws := snd v in
  if is_chain edges (mrows U) then viterbi U pws
  else
    let! f := is_forest edges (Some (mrows U)) in
    if (f : bool) then tree_max_product U pws edges
    else iterative_max_product U pws edges max_iter damping default_tol.
