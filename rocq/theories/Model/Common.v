(** Model of pystruct/inference/common.py *)
From Verif Require Export Model.Numpy.

(** The argument [pairwise_params]: a 2-d array, or a 3-d array of shape (n0, n1, n2). *)
Inductive pairwise :=
| Pw2 (m : mat)
| Pw3 (n0 n1 n2 : nat) (d : list (list (list Qc))).

(** A 3-d array has the announced shape. *)
Definition pw_ok (p : pairwise) : Prop :=
  match p with
  | Pw2 m => mat_ok m
  | Pw3 n0 n1 n2 d => length d = n0 /\ Forall (fun a => mat_ok (Mat n1 n2 a)) d
  end.

(** [_validate_params], common.py 4-17.  [n_edges] is edges.shape[0].
    Result: n_states and one n_states x n_states table per edge. *)
Definition validate_params (unary : mat) (p : pairwise) (n_edges : nat)
  : res (nat * list (list (list Qc))) :=
  let n_states := mcols unary in
  match p with
  | Pw2 m =>
      if ((mrows m =? n_states) && (mcols m =? n_states))%nat
      then Ok (n_states, repeat (mdat m) n_edges)      (* lines 6-9 *)
      else Err ValueError                             (* lines 11-15: a 2-d shape is never 3-d *)
  | Pw3 n0 n1 n2 d =>
      if ((n0 =? n_edges) && (n1 =? n_states) && (n2 =? n_states))%nat
      then Ok (n_states, d)
      else Err ValueError
  end.

(** The loop of [compute_energy], common.py 49-50, from partial sum [acc]. *)
Fixpoint energy_loop (n_states : nat) (edges : list (nat * nat)) (pws : list (list (list Qc)))
         (labels : list nat) (acc : Qc) : res Qc :=
  match edges, pws with
  | (a, b) :: es, pw :: ps =>
      let! la := index labels a in
      let! lb := index labels b in
      let! _ := ensure ((la <? n_states) && (lb <? n_states))%nat IndexError in
      energy_loop n_states es ps labels (acc + get2 pw la lb)
  | _, _ => Ok acc                                     (* zip stops at the shorter one *)
  end.

(** [compute_energy], common.py 20-51. *)
Definition compute_energy (unary : mat) (p : pairwise) (edges : list (nat * nat))
           (labels : list nat) : res Qc :=
  let! v := validate_params unary p (length edges) in
  let '(n_states, pws) := v in
  (* unary_potentials[np.arange(len(labels)), labels] *)
  let! _ := ensure ((length labels <=? mrows unary) &&
                    forallb (fun s => s <? n_states) labels)%nat IndexError in
  energy_loop n_states edges pws labels
    (sumn (length labels) (fun i => mget unary i (nth i labels O))).
