(** The structured prediction tasks of the concrete models. *)
From Coq Require Import ZArith.
From Verif Require Export Spec.TaskSpec Spec.ClassSpec Spec.Energy Spec.LossSpec Model.GraphCRF Model.ChainCRF.

(** binary: labels -1 and +1, feature y*x/2, 0/1 loss *)
Definition bc_task : task (list Qc) Z :=
  Task (fun _ y => y = 1%Z \/ y = (-1)%Z)
       (fun x y => vscale (ofZ y / (1 + 1)) x)
       (fun y y' => if (y =? y')%Z then 0 else 1).

(** k classes with prices [c s] for mistakes on class s *)
Definition mc_task (k F : nat) (c : nat -> Qc) : task (list Qc) nat :=
  Task (fun _ y => (y < k)%nat)
       (fun x y => class_feature 1 k F x y)
       (fun y y' => if (y =? y')%nat then 0 else c y).

(** the same with everything multiplied by the price of the true class [y0] *)
Definition mc_rescaled_task (k F : nat) (c : nat -> Qc) (y0 : nat) : task (list Qc) nat :=
  Task (fun _ y => (y < k)%nat)
       (fun x y => class_feature (c y0) k F x y)
       (fun y y' => if (y =? y')%nat then 0 else c y).

(** pairwise models: all labellings of the nodes, the joint feature of the code (whose score
    is described by C01), class-weighted Hamming loss *)
Definition ok_or {A} (d : A) (r : res A) : A := match r with Ok a => a | Err _ => d end.
Definition g_task (g : graph_crf) (cw : list Qc) : task graph_x (list nat) :=
  Task (fun x y => labelling (mrows (gx_features x)) (g_states g) y)
       (fun x y => ok_or [] (g_joint_feature g x (Discrete y)))
       (fun y y' => hamming (length y) (get1 cw) (lab y) (lab y')).
Definition chain_task (g : graph_crf) (cw : list Qc) : task mat (list nat) :=
  Task (fun x y => labelling (mrows x) (g_states g) y)
       (fun x y => ok_or [] (g_joint_feature g (chain_x x) (Discrete y)))
       (fun y y' => hamming (length y) (get1 cw) (lab y) (lab y')).
