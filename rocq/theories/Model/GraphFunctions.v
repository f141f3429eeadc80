(** Model of pystruct/utils/graph_functions.py and of the tree search that
    pystruct/inference/maxprod.py repeats (lines 65-103). *)
From Verif Require Export Model.Numpy.

Definition upd {A} (f : nat -> A) (i : nat) (v : A) : nat -> A :=
  fun j => if (j =? i)%nat then v else f j.

(** [neighbors] (graph_functions.py 10-13) and [pairwise_weights] (maxprod.py 69-75), in the
    order of the appends.  An entry (v, (e, o)) of node u is neighbour v through edge number
    e; o tells that the edge is stored as (v, u), i.e. that pairwise_weights holds pw.T.
    (The code stores pw or pw.T itself; is_forest stores neither.) *)
Definition entry := (nat * (nat * bool))%type.
Definition adjacency (edges : list (nat * nat)) (u : nat) : list entry :=
  flat_map (fun p : nat * (nat * nat) =>
              let '(e, (a, b)) := p in
              (if (a =? u)%nat then [(b, (e, false))] else []) ++
              (if (b =? u)%nat then [(a, (e, true))] else []))
           (combine (seq 0 (length edges)) edges).

(** Variables of the search.  [parent v = None] is parents[v] = -1; together with the parent
    we keep the entry through which v was reached (pw_forward in maxprod.py).
    [traversal] is kept most recent first. *)
Record search_state := SState {
  st_visited : nat -> bool;
  st_parent : nat -> option (nat * (nat * bool));
  st_queue : list nat;
  st_traversal : list nat }.

(** graph_functions.py 26-32 = maxprod.py 95-103; [None]: a visited neighbour that is not the
    parent (is_forest returns False, tree_max_product raises ValueError). *)
Fixpoint visit_neighbors (node : nat) (l : list entry) (st : search_state) : option search_state :=
  match l with
  | [] => Some st
  | (nb, q) :: l' =>
      if negb (st_visited st nb) then
        visit_neighbors node l'
          (SState (upd (st_visited st) nb true) (upd (st_parent st) nb (Some (node, q)))
                  (st_queue st ++ [nb]) (st_traversal st))
      else
        match st_parent st node with
        | Some (p, _) => if (p =? nb)%nat then visit_neighbors node l' st else None
        | None => None
        end
  end.

(** queue.pop() and queue.pop(0) *)
Definition pop_last (q : list nat) : option (nat * list nat) :=
  match rev q with [] => None | x :: r => Some (x, rev r) end.
Definition pop_first (q : list nat) : option (nat * list nat) :=
  match q with [] => None | x :: r => Some (x, r) end.

(** while queue: ..., graph_functions.py 24-32 / maxprod.py 92-103 *)
Fixpoint search_loop (fuel : nat) (pop : list nat -> option (nat * list nat))
         (adj : nat -> list entry) (st : search_state) : res (option search_state) :=
  match pop (st_queue st) with
  | None => Ok (Some st)
  | Some (node, q) =>
      match fuel with
      | O => Err OutOfFuel
      | S f =>
          match visit_neighbors node (adj node)
                  (SState (st_visited st) (st_parent st) q (node :: st_traversal st)) with
          | None => Ok None
          | Some st' => search_loop f pop adj st'
          end
      end
  end.

(** while lonely < n_vertices: ..., graph_functions.py 15-32 / maxprod.py 83-103: the scan
    over [lonely] visits the unvisited vertices in increasing order. *)
Fixpoint search_all (fuel : nat) (pop : list nat -> option (nat * list nat))
         (adj : nat -> list entry) (vertices : list nat) (st : search_state)
  : res (option search_state) :=
  match vertices with
  | [] => Ok (Some st)
  | i :: r =>
      if st_visited st i then search_all fuel pop adj r st
      else
        let! o := search_loop fuel pop adj
                    (SState (upd (st_visited st) i true) (st_parent st) [i] (st_traversal st)) in
        match o with
        | None => Ok None
        | Some st' => search_all fuel pop adj r st'
        end
  end.

Definition search (n : nat) (pop : list nat -> option (nat * list nat)) (edges : list (nat * nat))
  : res (option search_state) :=
  search_all n pop (adjacency edges) (seq 0 n) (SState (fun _ => false) (fun _ => None) [] []).

(** np.max(edges) + 1 *)
Definition max_vertex (edges : list (nat * nat)) : nat :=
  fold_right (fun e m => Nat.max (Nat.max (fst e) (snd e)) m) O edges.

(** [is_forest], graph_functions.py 4-33 *)
Definition is_forest (edges : list (nat * nat)) (n_vertices : option nat) : res bool :=
  let too_many := match n_vertices with Some n => (n <=? length edges)%nat | None => false end in
  if too_many then Ok false
  else match edges with
       | [] => Err ValueError                         (* np.max of an empty array *)
       | _ =>
           let! o := search (S (max_vertex edges)) pop_last edges in
           Ok (match o with None => false | Some _ => true end)
       end.
