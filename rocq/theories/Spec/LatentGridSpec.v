(** Latent grid models as tasks on latent labellings of the h * w pixels. *)
From Verif Require Export Model.LatentGrid Spec.GridSpec Spec.LatentSpec.

Definition ltg_task (t : ltg_crf) : task grid_x (list nat) :=
  Task (fun x h => labelling (gr_h x * gr_w x) (lg_states (tg_lg t)) h)
       (fun x h => ok_or [] (grid_joint_feature (ltg_grid t) x (Discrete h)))
       (label_distance (lg_counts (tg_lg t))).
Definition ldg_task (d : ldg_crf) : task grid_x (list nat) :=
  Task (fun x h => labelling (gr_h x * gr_w x) (lg_states (dg_lg d)) h)
       (fun x h => ok_or [] (ldg_joint_feature d x (EDiscrete h)))
       (label_distance (lg_counts (dg_lg d))).
(** completions: latent states belonging to the labels *)
Definition grid_explains (counts : list nat) : grid_x -> list nat -> list nat -> Prop := fun _ y h => explains counts h y.
(** how often a directed edge leads from node [i] to a node labelled [l], and from such a node to [i] *)
Definition leads_to (e : list (nat * nat)) (y : list nat) (i l : nat) : nat :=
  length (filter (fun p => (fst p =? i) && (lab y (snd p) =? l))%nat e).
Definition comes_from (e : list (nat * nat)) (y : list nat) (i l : nat) : nat :=
  length (filter (fun p => (snd p =? i) && (lab y (fst p) =? l))%nat e).
