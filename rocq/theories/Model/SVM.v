(** Model of pystruct/learners/svm.py (SVM): a binary support vector machine with intercept.
    cvxopt.solvers.qp is a parameter; its status is not looked at by the code.
    Not modelled: printing; numpy broadcasting of a label array of length 1 (ValueError here); integer label arrays, which
    cvxopt rejects. *)
From Verif Require Export Model.QP.

Definition identity (n : nat) : mat := mtab n n (fun i j => if (i =? j)%nat then 1 else 0).

(** lines 11-26 *)
Definition svm_problem (X : mat) (y : list Qc) (C : Qc) : res qp :=
  let n := mrows X in
  let! _ := ensure (length y =? n)%nat ValueError in
  let Xy := mtab n (mcols X) (fun i j => mget X i j * get1 y i) in
  Ok (QP (gram Xy 0) (vscale (- (1)) (repeat 1 n))
         (mat_stack (minus_identity n) (identity n)) (vzero n ++ repeat C n)
         (Mat 1 n [y]) [0]).

Record svm := SVM { svm_a : list Qc; svm_sv : list (list Qc); svm_sv_y : list Qc; svm_b : Qc; svm_w : list Qc }.

(** 1e-5, line 35 *)
Definition sv_tol : Qc := Q2Qc (1 # 100000).

(** lines 42-46: [self.b] starts as the integer 0, so without support vectors the division is 0 / 0 of Python *)
Definition intercept (a : list Qc) (sv : list (list Qc)) (sv_y : list Qc) : res Qc :=
  let term n := get1 sv_y n - sumn (length a) (fun m => get1 a m * get1 sv_y m * dot (nth m sv []) (nth n sv [])) in
  if (length a =? 0)%nat then Err ZeroDivisionError
  else Ok (sumn (length a) term / ofN (length a)).
(** lines 48-50 *)
Definition normal (d : nat) (a : list Qc) (sv : list (list Qc)) (sv_y : list Qc) : list Qc :=
  fold_left (fun w n => vadd w (vscale (get1 a n * get1 sv_y n) (nth n sv []))) (seq 0 (length a)) (vzero d).

(** [SVM.fit] *)
Definition svm_fit (solve : qp -> res (list Qc)) (C : Qc) (X : mat) (y : list Qc) : res svm :=
  let! p := svm_problem X y C in
  let! a := solve p in
  let! _ := ensure (length a =? mrows X)%nat IndexError in
  let idx := filter (fun i => Qcltb sv_tol (get1 a i)) (seq 0 (mrows X)) in
  let sa := map (get1 a) idx in
  let sv := map (fun i => nth i (mdat X) []) idx in
  let sy := map (get1 y) idx in
  let! b := intercept sa sv sy in
  Ok (SVM sa sv sy b (normal (mcols X) sa sv sy)).

(** [decision_function], 52-53 *)
Definition svm_decision (s : svm) (X : mat) : res (list Qc) :=
  let! _ := ensure (mcols X =? length (svm_w s))%nat ValueError in
  Ok (map (fun x => dot x (svm_w s) + svm_b s) (mdat X)).
(** np.sign *)
Definition np_sign (q : Qc) : Qc := if Qcltb 0 q then 1 else if Qcltb q 0 then - (1) else 0.
(** [predict], 55 *)
Definition svm_predict (s : svm) (X : mat) : res (list Qc) :=
  let! d := svm_decision s X in Ok (map np_sign d).
