(** pystruct/plot_learning.py.  matplotlib is modelled by what [plot] checks: both sequences have
    the same length.  Scales, labels and printing are not modelled; the printed numbers are part
    of the result.  [every] is the attribute show_loss_every.  A LatentSSVM is replaced by its
    base_ssvm first (lines 45-46). *)
From Verif Require Export Model.Curves.

Notation line := (list Qc * list Qc)%type (only parsing).

(** "Iterations", "Objective", "Gap"; the curves drawn on the left axes ("dual", "primal" or
    "cached primal", the points "primal") and on the right axes (training error) *)
Record drawing := Drawing {
  d_iterations : nat; d_objective : Qc; d_gap : option Qc;
  d_dual : line; d_primal : option line; d_inference : option line; d_error : option line }.

Definition attribute {A} (o : option A) : res A := match o with Some a => Ok a | None => Err AttributeError end.
(** axes.plot(xs, ys) *)
Definition plot (xs ys : list Qc) : res line :=
  if (length xs =? length ys)%nat then Ok (xs, ys) else Err ValueError.
(** np.arange(n) *)
Definition arange (n : nat) : list Qc := map ofN (seq 0 n).
(** l[mask] for a boolean array *)
Definition masked {A} (l : list A) (mask : list bool) : list A := map fst (filter snd (combine l mask)).
Definition bool_index {A} (l : list A) (mask : list bool) : res (list A) :=
  if (length l =? length mask)%nat then Ok (masked l mask) else Err IndexError.
(** l[::n] *)
Definition every_nth {A} (n : nat) (l : list A) : res (list A) :=
  if (n =? 0)%nat then Err ValueError
  else Ok (map snd (filter (fun p => (fst p mod n =? 0)%nat) (combine (seq 0 (length l)) l))).
(** ~np.array(l) of a list of booleans; the empty list gives an array of floats *)
Definition invert (l : list bool) : res (list bool) :=
  match l with [] => Err TypeError | _ => Ok (map negb l) end.
Definition sixty : Qc := ofN 60.

(** the x-coordinates, lines 63-71 *)
Definition plot_inds (time : bool) (times : option (list Qc)) (n : nat) : res (list Qc) :=
  match time, times with
  | true, Some ts =>
      let inds := map (fun t => t / sixty) (slice 2 (S n) ts) in
      let! l := last_entry inds in
      Ok (inds ++ [l])
  | _, _ => Ok (arange n)
  end.

(** lines 95-98: try ... except *)
Definition plot_error (every : nat) (inds loss : list Qc) : line :=
  match (let! xs := every_nth every inds in plot xs loss) with
  | Ok l => l
  | Err _ => (arange (length loss), loss)
  end.

(** lines 47-102 *)
Definition plot_learning (time : bool) (every : nat) (b : book) : res drawing :=
  let! obj := attribute (b_obj b) in
  let! o := last_entry obj in
  let n := length obj in
  let! run := (match b_cached b with
               | None => Ok None
               | Some c =>
                   let! mask := invert c in
                   let! p := attribute (b_primal b) in
                   let! sel := bool_index p mask in
                   let! q := last_entry sel in
                   Ok (Some (mask, q - o))
               end) in
  let! inds := plot_inds time (b_times b) n in
  let! dual := plot inds obj in
  let! primal := (match b_primal b with
                  | None => Ok None
                  | Some p => let! l := plot inds p in Ok (Some l)
                  end) in
  let! inference := (match run with
                     | None => Ok None
                     | Some (mask, _) =>
                         let mask := firstn n mask in
                         let! xs := bool_index inds mask in
                         let! p := attribute (b_primal b) in
                         let! ys := bool_index p mask in
                         let! l := plot xs ys in
                         Ok (Some l)
                     end) in
  let error := match b_loss b with
               | None => None
               | Some loss => Some (plot_error every inds loss)
               end in
  Ok (Drawing n o (match run with Some (_, g) => Some g | None => None end) dual primal inference error).
