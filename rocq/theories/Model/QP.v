(** The quadratic programs posed by the cutting-plane learners:
    pystruct/learners/n_slack_ssvm.py 141-204 and one_slack_ssvm.py 159-216.
    cvxopt.solvers.qp is a parameter. *)
From Verif Require Export Model.Numpy.

(** minimise x'Px/2 + q'x subject to Gx <= h, Ax = b *)
Record qp := QP { qp_P : mat; qp_q : list Qc; qp_G : mat; qp_h : list Qc; qp_A : mat; qp_b : list Qc }.

(** [Some (x, v)]: status 'optimal' with solution['x'] = x and solution['primal objective'] = v;
    [None]: any other status, or ValueError *)
Definition qp_solver := qp -> option (list Qc * Qc).

(** np.vstack of 1-d arrays *)
Definition vstack (rows : list (list Qc)) : res mat :=
  match rows with
  | [] => Err ValueError
  | r :: _ => if forallb (fun v => (length v =? length r)%nat) rows
              then Ok (Mat (length rows) (length r) rows) else Err ValueError
  end.

(** np.dot(Psi, Psi.T) + reg * np.eye(n) *)
Definition gram (Psi : mat) (reg : Qc) : mat :=
  mtab (mrows Psi) (mrows Psi) (fun i j =>
    sumn (mcols Psi) (fun k => mget Psi i k * mget Psi j k) + (if (i =? j)%nat then reg else 0)).
(** np.identity *)
Definition minus_identity (n : nat) : mat := mtab n n (fun i j => if (i =? j)%nat then - (1) else 0).
(** np.vstack of 2-d arrays with the same number of columns *)
Definition mat_stack (a b : mat) : mat := Mat (mrows a + mrows b) (mcols a) (mdat a ++ mdat b).

(** joint_feature_matrix.T[negativity_constraint], n_slack_ssvm.py 163-169 *)
Definition neg_rows (Psi : mat) (neg : option (list nat)) : res mat :=
  match neg with
  | None => Ok (Mat 0 (mrows Psi) [])
  | Some idx => take_rows (mat_T Psi) idx
  end.

(** for each constraint, the sample it belongs to *)
Fixpoint owners_from (i : nat) (sizes : list nat) : list nat :=
  match sizes with
  | [] => []
  | s :: r => repeat i s ++ owners_from (S i) r
  end.
Definition owners (sizes : list nat) : list nat := owners_from 0 sizes.

(** lines 142-176: [psis] and [losses] of all constraints, [sizes] = number of constraints of
    each sample *)
Definition n_slack_problem (C : Qc) (neg : option (list nat)) (n_samples : nat)
           (psis : list (list Qc)) (losses : list Qc) (sizes : list nat) (reg : Qc) : res qp :=
  let! Psi := vstack psis in
  let n := mrows Psi in
  (* blocks[i, first: first + len(sample)] = 1 *)
  let! _ := ensure (length sizes <=? n_samples)%nat IndexError in
  let blocks := mtab n_samples n (fun i j => ind (nth j (owners sizes) O =? i)%nat) in
  let! neg_constr := neg_rows Psi neg in
  Ok (QP (gram Psi reg) (vscale (- (1)) losses)
         (mat_stack (mat_stack (minus_identity n) blocks) neg_constr)
         (vzero n ++ repeat C n_samples ++ vzero (mrows neg_constr))
         (Mat 0 n []) []).

(** one_slack_ssvm.py 160-189 *)
Definition one_slack_problem (C : Qc) (neg : option (list nat)) (n_samples : nat)
           (psis : list (list Qc)) (losses : list Qc) (reg : Qc) : res qp :=
  let! Psi := vstack psis in
  let n := mrows Psi in
  let! neg_constr := neg_rows Psi neg in
  Ok (QP (gram Psi reg) (vscale (- (1)) losses)
         (mat_stack (minus_identity n) neg_constr)
         (vzero n ++ vzero (mrows neg_constr))
         (mtab 1 n (fun _ _ => 1)) [C * ofN n_samples]).

(** np.dot(a, joint_feature_matrix) *)
Definition weights (a : list Qc) (psis : list (list Qc)) : res (list Qc) :=
  let! Psi := vstack psis in
  if (length a =? mrows Psi)%nat
  then Ok (tab1 (mcols Psi) (fun j => sumn (mrows Psi) (fun c => get1 a c * mget Psi c j)))
  else Err ValueError.

(** 1e-8, the regulariser of the second attempt *)
Definition qp_reg : Qc := Q2Qc (1 # 100000000).

(** both attempts, n_slack_ssvm.py 179-191, one_slack_ssvm.py 192-204: the dual variables and
    the reported objective -solution['primal objective'] *)
Definition run_qp (solve : qp_solver) (problem : Qc -> res qp) : res (list Qc * Qc) :=
  let! p := problem 0 in
  match solve p with
  | Some (a, v) => Ok (a, - v)
  | None =>
      let! p' := problem qp_reg in
      match solve p' with
      | Some (a, v) => Ok (a, - v)
      | None => Err ValueError
      end
  end.
