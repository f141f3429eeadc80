(** Model of expand_sym / compress_sym in pystruct/utils/inference.py *)
From Verif Require Export Model.Numpy.

(** Positions where numpy.tri(size, dtype=bool) is True, in row-major order:
    what boolean-mask indexing enumerates. *)
Definition tri_positions (size : nat) : list (nat * nat) :=
  filter (fun ij => (snd ij <=? fst ij)%nat) (list_prod (seq 0 size) (seq 0 size)).

Definition pos_eqb (p q : nat * nat) : bool := ((fst p =? fst q) && (snd p =? snd q))%nat.
(** value assigned to position [p] by [m[mask] = vals] *)
Fixpoint mask_lookup (p : nat * nat) (l : list ((nat * nat) * Qc)) : Qc :=
  match l with
  | [] => 0
  | (q, v) :: r => if pos_eqb p q then v else mask_lookup p r
  end.

(** int(np.sqrt(2 * length + 0.25) - 1 / 2.), line 21, in exact arithmetic:
    sqrt(2L + 1/4) - 1/2 = (sqrt(8L + 1) - 1) / 2. *)
Definition sym_size (len : nat) : nat := ((Nat.sqrt (8 * len + 1) - 1) / 2)%nat.

(** [expand_sym], utils/inference.py 14-24.  (numpy would also broadcast a single
    value; a vector of length 1 always fits exactly.) *)
Definition expand_sym (v : list Qc) : res mat :=
  let size := sym_size (length v) in
  let pos := tri_positions size in
  if (length pos =? length v)%nat then
    let sym := mtab size size (fun i j => mask_lookup (i, j) (combine pos v)) in
    let! s := mat_add sym (mat_T sym) in
    mat_sub s (mat_diagdiag sym)
  else Err ValueError.

(** [compress_sym], utils/inference.py 27-50, on a square matrix. *)
Definition compress_sym (m : mat) (make_symmetric : bool) : res (list Qc) :=
  let size := mrows m in
  let! m' := (if make_symmetric
              then let! s := mat_add m (mat_T m) in mat_sub s (mat_diagdiag m)
              else Ok m) in
  (* a (size, size) mask on a matrix of another width is an IndexError *)
  let! _ := ensure (mcols m' =? size)%nat IndexError in
  Ok (map (fun p => mget m' (fst p) (snd p)) (tri_positions size)).
