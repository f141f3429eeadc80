(** Model of examples/svm_as_crf.py: a multiclass problem as graphs with one node and no edges. *)
From Verif Require Export Model.GraphCRF.

(** line 25: (np.atleast_2d(x), np.empty((0, 2))) *)
Definition node_x (x : list Qc) : graph_x := GraphX (Mat 1 (length x) [x]) [].
(** line 26: a row of y.reshape(-1, 1) *)
Definition node_y (y : nat) : list nat := [y].
