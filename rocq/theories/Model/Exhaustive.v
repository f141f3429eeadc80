(** Model of exhaustive_inference / exhaustive_loss_augmented_inference,
    pystruct/utils/inference.py 130-162. *)
From Verif Require Export Model.CRF.

(** itertools.product(range(k), repeat=n): all tuples in lexicographic order *)
Fixpoint product_range (k n : nat) : list (list nat) :=
  match n with
  | O => [[]]
  | S m => flat_map (fun a => map (cons a) (product_range k m)) (seq 0 k)
  end.

(** The loop of lines 134-141 / 154-161: keep the first [y_hat] of strictly smaller
    energy; [None] stands for best_energy = inf, best_y = None. *)
Fixpoint exhaustive_loop (energy : list nat -> res Qc) (ys : list (list nat))
         (best : option (list nat * Qc)) : res (option (list nat * Qc)) :=
  match ys with
  | [] => Ok best
  | y :: r =>
      let! e := energy y in
      let better := match best with None => true | Some (_, b) => Qcltb e b end in
      exhaustive_loop energy r (if better then Some (y, e) else best)
  end.

(** [exhaustive_inference] on GraphCRF, lines 145-162 *)
Definition exhaustive_inference (g : graph_crf) (x : graph_x) (w : list Qc) : res (option (list nat)) :=
  let size := mrows (gx_features x) in
  let! b := exhaustive_loop
    (fun y_hat => let! psi := g_joint_feature g x (Discrete y_hat) in
                  let! d := np_dot w psi in Ok (- d))
    (product_range (g_states g) size) None in
  Ok (option_map fst b).

(** [exhaustive_loss_augmented_inference] on GraphCRF, lines 130-142 *)
Definition exhaustive_loss_augmented_inference (g : graph_crf) (cw : list Qc) (x : graph_x)
           (y : list nat) (w : list Qc) : res (option (list nat)) :=
  let size := length y in
  let! b := exhaustive_loop
    (fun y_hat => let! psi := g_joint_feature g x (Discrete y_hat) in
                  let! l := loss (Some cw) y y_hat in
                  let! d := np_dot w psi in Ok (- l - d))
    (product_range (g_states g) size) None in
  Ok (option_map fst b).
