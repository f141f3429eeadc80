(** Model of the class MultiSVM of examples/multiclass_comparision_svm_struct.py: a wrapper around the
    programs svm_multiclass_learn and svm_multiclass_classify.  The programs are a parameter; data and
    model files are arguments.  Not modelled: the rounding of "%f" and the running time. *)
From Verif Require Export Model.Numpy.

(** svm_multiclass_learn -w 3 -c c data: the weights in the model file.
    svm_multiclass_classify data model: a line of numbers for every sample, the class and the scores *)
Record svm_multiclass := SvmMulticlass {
  sv_learn : Qc -> list (list Qc * nat) -> list Qc;
  sv_classify : list Qc -> list (list Qc * nat) -> list (list Qc) }.

(** [fit], lines 55-64; dump_svmlight_file refuses different numbers of rows and labels *)
Definition ms_fit (sv : svm_multiclass) (C : Qc) (X : list (list Qc)) (y : list nat) : res (list Qc) :=
  let! _ := ensure (length X =? length y)%nat ValueError in
  Ok (sv_learn sv (C * ofN 100 * ofN (length X)) (combine X (map S y))).
(** numpy.loadtxt: dimensions of size one are dropped *)
Inductive loaded := Flat (l : list Qc) | Table (rows : list (list Qc)).
Definition loadtxt (rows : list (list Qc)) : loaded :=
  match rows with
  | [] => Flat []
  | [r] => Flat r
  | _ => if forallb (fun r => length r =? 1)%nat rows then Flat (concat rows) else Table rows
  end.
(** [_predict] without labels, lines 66-76 *)
Definition ms_raw (sv : svm_multiclass) (w : list Qc) (X : list (list Qc)) : loaded :=
  loadtxt (sv_classify sv w (combine X (repeat 1%nat (length X)))).
(** [predict], lines 78-79, and [decision_function], 85-86; [:, 0] of a 1-d array raises *)
Definition ms_predict (sv : svm_multiclass) (w : list Qc) (X : list (list Qc)) : res (list Qc) :=
  match ms_raw sv w X with
  | Table rows => Ok (map (fun r => get1 r 0 - 1) rows)
  | Flat _ => Err IndexError
  end.
Definition ms_decision_function (sv : svm_multiclass) (w : list Qc) (X : list (list Qc)) : res (list (list Qc)) :=
  match ms_raw sv w X with
  | Table rows => Ok (map (@tl Qc) rows)
  | Flat _ => Err IndexError
  end.
(** [score], lines 81-83: sklearn's accuracy_score *)
Definition ms_score (sv : svm_multiclass) (w : list Qc) (X : list (list Qc)) (y : list nat) : res Qc :=
  let! p := ms_predict sv w X in
  let! _ := ensure (length y =? length p)%nat ValueError in
  Ok (ofN (length (filter (fun q => Qceqb (ofN (fst q)) (snd q)) (combine y p))) / ofN (length y)).
