(** Model of [swap_node_types], examples/plot_hidden_short_snakes_typed.py 219-273: renumber the
    node types of instances and labels made for a NodeTypeEdgeFeatureGraphCRF.

    The entries of l_perm are natural numbers; labels are 1-d integer arrays.  Printing is not
    modelled. *)
From Coq Require Import String ZArith.
From Verif Require Export Model.Typed.

(** [sum(l[:i]) for i in range(len(l))] *)
Definition offsets (l : list nat) : list nat := map (fun i => list_sum (firstn i l)) (seq 0 (length l)).
(** [0] + [sum(l[:i+1]) for i in range(len(l))] *)
Definition bounds (l : list nat) : list nat := O :: map (fun i => list_sum (firstn (S i) l)) (seq 0 (length l)).
(** a_delta_y_by_y and a_typ_by_y, lines 232-233 *)
Definition delta_by_y (states : list nat) : list nat :=
  concat (map (fun p => repeat (fst p) (snd p)) (combine (offsets states) states)).
Definition typ_by_y (states : list nat) : list nat :=
  concat (map (fun p => repeat (fst p) (snd p)) (combine (seq 0 (length states)) states)).
(** [l[i] for i in l_perm] *)
Definition pick {A} (l_perm : list nat) (l : list A) : res (list A) := mapM (index l) l_perm.

(** y[a:b] = v, which broadcasts a v with one entry; a <= b *)
Definition set_slice (y : list Z) (a b : nat) (v : list Z) : res (list Z) :=
  let a := Nat.min a (length y) in
  let b := Nat.min b (length y) in
  let put v := (firstn a y ++ v ++ skipn b y)%list in
  if (length v =? b - a)%nat then Ok (put v)
  else match v with
       | [z] => Ok (put (repeat z (b - a)))
       | _ => Err ValueError
       end.
(** nf.shape[0]; None has no shape *)
Definition n_rows (o : option mat) : res nat :=
  match o with None => Err AttributeError | Some m => Ok (mrows m) end.

(** lines 249-251: [k] iterations are left, the next one is number [i] *)
Fixpoint move_labels (l_perm cum cum' : list nat) (y : list Z) (k i : nat) (y' : list Z) : res (list Z) :=
  match k with
  | O => Ok y'
  | S k' =>
      let! j := index l_perm i in
      let! a := index cum' j in
      let! b := index cum' (S j) in
      let! y'' := set_slice y' a b (skipn (nth i cum O) (firstn (nth (S i) cum O) y)) in
      move_labels l_perm cum cum' y k' (S i) y''
  end.
(** line 253 *)
Definition relabel (l_perm states states' : list nat) (y : list Z) : res (list Z) :=
  mapM (fun z =>
    let! d := zindex (delta_by_y states) z in
    let! t := zindex (typ_by_y states) z in
    let! p := index l_perm t in
    let! o := index (offsets states') p in
    Ok (z - Z.of_nat d + Z.of_nat o)%Z) y.
(** the loop body, lines 238-259 *)
Definition swap_one (l_perm states states' : list nat) (x : typed_x) (y : list Z) : res (typed_x * list Z) :=
  let! nodes := pick l_perm (tx_nodes x) in
  let! rows := mapM n_rows (tx_nodes x) in
  let! rows' := mapM n_rows nodes in
  let! y1 := move_labels l_perm (bounds rows) (bounds rows') y (length (tx_nodes x)) 0 (repeat 0%Z (length y)) in
  let! y2 := relabel l_perm states states' y1 in
  let pairs := map (fun p => (fst p * length states + snd p)%nat) (list_prod l_perm l_perm) in
  let! edges := pick pairs (tx_edges x) in
  let! feats := pick pairs (tx_edge_features x) in
  Ok (TypedX nodes edges feats, y2).

(** A logic constraint over several types: operator, unaries, states and negations per type. *)
Definition typed_constraint : Type := (string * list (list nat) * list (list nat) * list (list bool))%type.
Definition swap_constraint (l_perm : list nat) (c : typed_constraint) : res typed_constraint :=
  let '(op, us, ss, ns) := c in
  let! us' := pick l_perm us in
  let! ss' := pick l_perm ss in
  let! ns' := pick l_perm ns in
  Ok (op, us', ss', ns').
(** the inner loop, lines 266-271, which appends to the list that it runs over: [todo] is the part
    not visited yet, [seen] the part before.  None: still running after [fuel] iterations. *)
Fixpoint swap_loop (fuel : nat) (l_perm : list nat) (seen todo : list typed_constraint)
  : option (res (list typed_constraint)) :=
  match todo with
  | [] => Some (Ok seen)
  | c :: r =>
      match fuel with
      | O => None
      | S f =>
          match swap_constraint l_perm c with
          | Err e => Some (Err e)
          | Ok c' => swap_loop f l_perm (seen ++ [c]) (r ++ [c'])
          end
      end
  end.
(** lines 265-272: the result is appended after the outer loop, so only the last list is kept *)
Fixpoint swap_constraints (fuel : nat) (l_perm : list nat) (last : list typed_constraint) (cs : list (list typed_constraint))
  : option (res (list (list typed_constraint))) :=
  match cs with
  | [] => Some (Ok [last])
  | c :: r =>
      match swap_loop fuel l_perm [] c with
      | None => None
      | Some (Err e) => Some (Err e)
      | Some (Ok l) => swap_constraints fuel l_perm l r
      end
  end.

Definition swap_node_types (fuel : nat) (l_perm states : list nat) (lX : list typed_x) (lY : list (list Z))
           (constraints : list (list typed_constraint))
  : option (res (list typed_x * list (list Z) * option (list (list typed_constraint)))) :=
  match (let! states' := pick l_perm states in
         mapM (fun p => swap_one l_perm states states' (fst p) (snd p)) (combine lX lY)) with
  | Err e => Some (Err e)
  | Ok l =>
      match constraints with
      | [] => Some (Ok (map fst l, map snd l, None))        (* [if constraints:] *)
      | _ =>
          match swap_constraints fuel l_perm [] constraints with
          | None => None
          | Some (Err e) => Some (Err e)
          | Some (Ok cs) => Some (Ok (map fst l, map snd l, Some cs))
          end
      end
  end.
