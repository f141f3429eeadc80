(** Python exceptions as values, and the numpy primitives the code uses.

    Doubles are exact rationals ([Qc]); labels and indices are [nat]
    (negative indices, which numpy would wrap around, cannot be expressed).
    2-d arrays carry their shape, so that shape errors are modelled. *)
From Verif Require Export Base.Sums.

(** The exceptions raised by the modelled code. *)
Inductive exn :=
| ValueError
| IndexError
| TypeError
| KeyError
| AssertionError
| AttributeError
| ZeroDivisionError
| UnboundLocalError
| NotImplementedError
| ImportError
| KeyboardInterrupt
| InconsistentLabel     (* pystruct.models.typed_crf.InconsistentLabel *)
| InferenceException    (* pystruct.inference.inference_methods.InferenceException *)
| NoConstraint          (* pystruct.learners.one_slack_ssvm.NoConstraint *)
| OutOfBounds           (* undefined behaviour: C access outside an array (boundscheck=False) *)
| NonFinite             (* not an exception: a numpy division by zero giving nan or inf *)
| OutOfFuel             (* never returned: loop bound of the model exhausted *)
| OtherException.

Inductive res (A : Type) :=
| Ok (a : A)
| Err (e : exn).
Arguments Ok {A} a.
Arguments Err {A} e.

Definition bind {A B} (r : res A) (k : A -> res B) : res B :=
  match r with
  | Ok a => k a
  | Err e => Err e
  end.
Notation "'let!' x ':=' r 'in' k" := (bind r (fun x => k))
  (at level 200, x pattern, r at level 100, k at level 200, only parsing).

Definition is_ok {A} (r : res A) : bool := match r with Ok _ => true | Err _ => false end.
Definition ensure (b : bool) (e : exn) : res unit := if b then Ok tt else Err e.

(** Run [f] on every element, stopping at the first exception (a Python loop). *)
Fixpoint mapM {A B} (f : A -> res B) (l : list A) : res (list B) :=
  match l with
  | [] => Ok []
  | a :: r => let! b := f a in let! bs := mapM f r in Ok (b :: bs)
  end.

(** ** 2-d arrays *)
Record mat := Mat { mrows : nat; mcols : nat; mdat : list (list Qc) }.

(** What makes a [mat] a real array: the data has the announced shape. *)
Definition mat_okb (a : mat) : bool :=
  (length (mdat a) =? mrows a)%nat &&
  forallb (fun r => (length r =? mcols a)%nat) (mdat a).
Definition mat_ok (a : mat) : Prop :=
  length (mdat a) = mrows a /\ Forall (fun r => length r = mcols a) (mdat a).

Definition mget (a : mat) (i j : nat) : Qc := get2 (mdat a) i j.
Definition mtab (n m : nat) (f : nat -> nat -> Qc) : mat := Mat n m (tab2 n m f).

(** numpy.dot of two 2-d arrays *)
Definition mat_mul (a b : mat) : res mat :=
  if (mcols a =? mrows b)%nat
  then Ok (mtab (mrows a) (mcols b) (fun i j => sumn (mcols a) (fun k => mget a i k * mget b k j)))
  else Err ValueError.
(** a.T *)
Definition mat_T (a : mat) : mat := mtab (mcols a) (mrows a) (fun i j => mget a j i).
(** a + b, a - b on equal shapes (broadcasting is not used in the modelled calls) *)
Definition mat_same (a b : mat) : bool := (mrows a =? mrows b)%nat && (mcols a =? mcols b)%nat.
Definition mat_add (a b : mat) : res mat :=
  if mat_same a b then Ok (mtab (mrows a) (mcols a) (fun i j => mget a i j + mget b i j)) else Err ValueError.
Definition mat_sub (a b : mat) : res mat :=
  if mat_same a b then Ok (mtab (mrows a) (mcols a) (fun i j => mget a i j - mget b i j)) else Err ValueError.
(** numpy.diag(numpy.diag(a)) for a square matrix *)
Definition mat_diagdiag (a : mat) : mat :=
  mtab (mrows a) (mrows a) (fun i j => if (i =? j)%nat then mget a i i else 0).
Definition mat_zeros (n m : nat) : mat := mtab n m (fun _ _ => 0).
(** a.ravel() (row-major) *)
Definition ravel (a : mat) : list Qc := concat (mdat a).
(** v.reshape(n, m) (row-major) *)
Definition reshape (v : list Qc) (n m : nat) : res mat :=
  if (length v =? n * m)%nat
  then Ok (mtab n m (fun i j => get1 v (i * m + j)))
  else Err ValueError.
(** a[rows], integer-array indexing of the first axis *)
Definition take_rows (a : mat) (idx : list nat) : res mat :=
  if forallb (fun i => (i <? mrows a)%nat) idx
  then Ok (Mat (length idx) (mcols a) (map (fun i => nth i (mdat a) []) idx))
  else Err IndexError.

(** numpy.dot of two vectors *)
Definition np_dot (a b : list Qc) : res Qc :=
  if (length a =? length b)%nat then Ok (dot a b) else Err ValueError.

(** a[i], i-th element *)
Definition index {A} (l : list A) (i : nat) : res A :=
  match nth_error l i with
  | Some a => Ok a
  | None => Err IndexError
  end.

(** the same access in Cython code compiled with boundscheck=False *)
Definition cindex {A} (l : list A) (i : nat) : res A :=
  match nth_error l i with
  | Some a => Ok a
  | None => Err OutOfBounds
  end.

(** numpy.argmax of a 1-d array: first position of a maximal entry *)
Fixpoint argmax_aux (best : Qc) (bi i : nat) (l : list Qc) : nat :=
  match l with
  | [] => bi
  | x :: r => if Qcltb best x then argmax_aux x i (S i) r else argmax_aux best bi (S i) r
  end.
Definition np_argmax (l : list Qc) : res nat :=
  match l with
  | [] => Err ValueError
  | x :: r => Ok (argmax_aux x 0 1 r)
  end.
(** numpy.max *)
Definition np_max (l : list Qc) : res Qc :=
  match l with
  | [] => Err ValueError
  | x :: r => Ok (fold_left Qcmax r x)
  end.

(** numpy.cumsum of integers *)
Fixpoint cumsum_from (acc : nat) (l : list nat) : list nat :=
  match l with
  | [] => []
  | x :: r => (acc + x)%nat :: cumsum_from (acc + x) r
  end.
Definition np_cumsum (l : list nat) : list nat := cumsum_from 0 l.

(** zeros((n, n_states)); z[arange(n), y] = 1 : one-hot encoding *)
Definition one_hot (n_states : nat) (y : list nat) : res mat :=
  if forallb (fun s => (s <? n_states)%nat) y
  then Ok (mtab (length y) n_states (fun i s => ind (s =? nth i y 0)%nat))
  else Err IndexError.
