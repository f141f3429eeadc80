(** C74: a learner sees a model only through its methods: two models that agree on the training samples (whatever the
    format of the inputs) give the same fits, of all learners, step by step, exceptions included. *)
From Coq Require Import ZArith String.
From Verif Require Import Spec.SingleTypeSpec Spec.AlikeSpec Model.Convert Model.Instances Model.NSlack Model.FrankWolfe Model.Subgradient Model.Perceptron
  Proofs.Alike Proofs.Alike2 Proofs.SingleTypeExamples.

(** find_constraint and the primal objective *)
Theorem C74_find_constraint {X X' Y} (m : smodel X Y) (m' : smodel X' Y) p p' w compute : alike_sizes m m' -> alike m m' p p' ->
  find_constraint m (fst p) (snd p) w None compute = find_constraint m' (fst p') (snd p') w None compute.
Proof. intros HS H. exact (fc_eq m m' HS p p' w compute H). Qed.
Theorem C74_objective {X X' Y} (m : smodel X Y) (m' : smodel X' Y) S S' w C v : alike_samples m m' S S' ->
  objective_primal m w (map fst S) (map snd S) C v = objective_primal m' w (map fst S') (map snd S') C v.
Proof. intros [HS H]. exact (primal_eq m m' HS S S' w C v H). Qed.
(** StructuredPerceptron *)
Theorem C74_perceptron {X X' Y} (m : smodel X Y) (m' : smodel X' Y) S S' prm mloss old : alike_samples m m' S S' ->
  pc_fit prm m mloss old S = pc_fit prm m' mloss old S'.
Proof. intros [HS H]. exact (pc_fit_eq m m' HS prm mloss old S S' H). Qed.
(** SubgradientSSVM: the shuffling treats both lists alike *)
Theorem C74_subgradient {X X' Y} (m : smodel X Y) (m' : smodel X' Y) S S' prm shuf shuf' warm L : alike_samples m m' S S' ->
  (forall it A A', Forall2 (alike m m') A A' -> Forall2 (alike m m') (shuf it A) (shuf' it A')) ->
  sg_fit prm (base_bmodel m) shuf warm S L = sg_fit prm (base_bmodel m') shuf' warm S' L.
Proof. intros [HS H] HF. exact (sg_fit_eq m m' HS prm shuf shuf' warm S S' L H HF). Qed.
(** FrankWolfeSSVM *)
Theorem C74_frank_wolfe {X X' Y} (m : smodel X Y) (m' : smodel X' Y) S S' prm sched old : alike_samples m m' S S' ->
  fw_fit prm (base_bmodel m) (map fst S) (map snd S) sched old = fw_fit prm (base_bmodel m') (map fst S') (map snd S') sched old.
Proof. intros [HS H]. exact (fw_fit_eq m m' HS prm S S' sched old H). Qed.
(** NSlackSSVM, with switch_to *)
Theorem C74_n_slack {X X' Y} (m : smodel X Y) (m' : smodel X' Y) sw sw' S S' yeq solve prm cs old : alike_samples m m' S S' -> same_switch sw sw' S S' ->
  ns_fit yeq solve prm m sw (map fst S) (map snd S) cs old = ns_fit yeq solve prm m' sw' (map fst S') (map snd S') cs old.
Proof. exact (ns_fit_eq yeq solve prm m m' sw sw' S S' cs old). Qed.
(** OneSlackSSVM, with switch_to, the inference cache and warm starts *)
Theorem C74_one_slack {X X' Y} (m : smodel X Y) (m' : smodel X' Y) sw sw' S S' ceq solve prm ws : alike_samples m m' S S' -> same_switch sw sw' S S' ->
  os_fit ceq solve prm (base_bmodel m) (option_map base_bmodel sw) (map fst S) (map snd S) ws =
  os_fit ceq solve prm (base_bmodel m') (option_map base_bmodel sw') (map fst S') (map snd S') ws.
Proof. exact (os_fit_eq ceq solve prm m m' sw sw' S S' ws). Qed.
(** and the predictions for given weights *)
Theorem C74_predictions {X X' Y} (m : smodel X Y) (m' : smodel X' Y) S S' w : alike_samples m m' S S' ->
  mapM (fun x => sm_inference m x w) (map fst S) = mapM (fun x => sm_inference m' x w) (map fst S').
Proof. intros [_ H]. induction H as [|p p' S S' H _ IH]; [reflexivity|]. cbn [map mapM]. rewrite (inf_eq m m' p p' w H), IH. reflexivity. Qed.

(** examples/plot_snakes_typed.py: OneSlackSSVM on the converted samples of a single type gives what it gives in plot_snakes.py. *)
Theorem C74_single_type_one_slack b g cw method exc S ceq solve prm ws : plain g -> (method = "ad3" \/ method = "ad3+")%string ->
  (forall lib, b_ad3 b = Some lib -> one_graph_lib lib) -> (0 < ef_states g)%nat -> (0 < ef_edge_features g)%nat ->
  Forall (fun p => ef_check_x g (fst p) = Ok tt /\ edges_exist (fst p) /\ labels_ok g (fst p) (snd p)) S ->
  os_fit ceq solve prm (base_bmodel (ty_smodel b (one_type g cw method exc))) None (map (fun p => convert_single (fst p)) S) (map snd S) ws =
  os_fit ceq solve prm (base_bmodel (ef_smodel (dispatch_solver b method) g cw)) None (map fst S) (map snd S) ws.
Proof.
  destruct g as [k nf ne sy an]. intros [E1 E2]. cbn in E1, E2. subst sy an. intros HM HL Hk Hne H.
  assert (A := alike_all b k nf ne cw method exc S HM HL Hk Hne H). assert (F := os_fit_eq ceq solve prm _ _ None None S _ ws A I).
  rewrite !map_map in F. symmetry. exact F.
Qed.

Definition ex35_prm : pc_params := PCParams 3 false 0 1 NoAverage.
Definition ex35_fit {X} (m : smodel X (list nat)) (S : list (X * list nat)) : option (list Q) :=
  match pc_fit ex35_prm m (fun y => Ok (ofN (length y))) None S with (l, None) => Some (map this (pl_w l)) | _ => None end.
Example C74_computed :
  ex35_fit (ef_smodel (dispatch_solver ex34_b "ad3") ex34_g [1; 1]) ex34_S = Some [0; 1; 0; -1; -3; 3; 1; -1; -21; 15; 11; -5]%Q /\
  ex35_fit (ty_smodel ex34_b (one_type ex34_g [1; 1] "ad3" false)) (map (fun p => (convert_single (fst p), snd p)) ex34_S) = Some [0; 1; 0; -1; -3; 3; 1; -1; -21; 15; 11; -5]%Q.
Proof. vm_compute. split; reflexivity. Qed.
Print Assumptions C74_find_constraint.
Print Assumptions C74_objective.
Print Assumptions C74_perceptron.
Print Assumptions C74_subgradient.
Print Assumptions C74_frank_wolfe.
Print Assumptions C74_n_slack.
Print Assumptions C74_one_slack.
Print Assumptions C74_predictions.
Print Assumptions C74_single_type_one_slack.
