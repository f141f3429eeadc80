(** Two models that differ in how they number or pad their weights and in how they write their
    inputs and labels. *)
From Verif Require Export Model.Learner Model.NSlack Model.OneSlack Model.FrankWolfe Model.Subgradient Model.Perceptron Model.CRF Model.SvmAsCrf.

(** related results, or the same exception *)
Definition rel_res {A B} (R : A -> B -> Prop) (r : res A) (r' : res B) : Prop :=
  match r, r' with
  | Ok a, Ok b => R a b
  | Err e, Err e' => e = e'
  | _, _ => False
  end.

(** A correspondence of vectors of length [n] and [n'] that respects sums, multiples and scalar
    products: padding with zeros, renumbering the entries, ... *)
Definition isometry (n n' : nat) (V : list Qc -> list Qc -> Prop) : Prop :=
  (forall a a', V a a' -> length a = n /\ length a' = n') /\
  V (vzero n) (vzero n') /\
  (forall a a' b b', V a a' -> V b b' -> V (vadd a b) (vadd a' b')) /\
  (forall c a a', V a a' -> V (vscale c a) (vscale c a')) /\
  (forall a a' b b', V a a' -> V b b' -> dot a b = dot a' b').

(** lists with one entry per sample *)
Inductive each {X X' A A'} (R : X -> X' -> A -> A' -> Prop) : list X -> list X' -> list A -> list A' -> Prop :=
| each_nil : each R [] [] [] []
| each_cons p p' a a' S S' l l' : R p p' a a' -> each R S S' l l' -> each R (p :: S) (p' :: S') (a :: l) (a' :: l').

Section Similar.
Context {X X' Y Y' : Type}.
(** [V]: corresponding weights; [L x x']: corresponding labels of the inputs [x] and [x'] *)
Variable V : list Qc -> list Qc -> Prop.
Variable L : X -> X' -> Y -> Y' -> Prop.
Definition sample_label (p : X * Y) (p' : X' * Y') (y : Y) (y' : Y') : Prop := L (fst p) (fst p') y y'.
(** sample [p] of one model is sample [p'] of the other *)
Definition similar (m : smodel X Y) (m' : smodel X' Y') (p : X * Y) (p' : X' * Y') : Prop :=
  sample_label p p' (snd p) (snd p') /\
  (forall y y', sample_label p p' y y' ->
     rel_res V (sm_joint m (fst p) y None) (sm_joint m' (fst p') y' None) /\
     rel_res V (sm_joint m (fst p) y (Some (snd p))) (sm_joint m' (fst p') y' (Some (snd p'))) /\
     sm_tuple m y = sm_tuple m' y' /\
     sm_loss m (snd p) y = sm_loss m' (snd p') y' /\ sm_closs m (snd p) y = sm_closs m' (snd p') y') /\
  (forall w w', V w w' ->
     rel_res (sample_label p p') (sm_inference m (fst p) w) (sm_inference m' (fst p') w') /\
     rel_res (sample_label p p') (sm_laug m (fst p) (snd p) w) (sm_laug m' (fst p') (snd p') w')).
Definition similar_sizes (n n' : nat) (m : smodel X Y) (m' : smodel X' Y') : Prop :=
  sm_size m = n /\ sm_size m' = n' /\ sm_rescale m = sm_rescale m'.
Definition similar_samples (n n' : nat) (m : smodel X Y) (m' : smodel X' Y') (S : list (X * Y)) (S' : list (X' * Y')) : Prop :=
  similar_sizes n n' m m' /\ Forall2 (similar m m') S S'.
(** the batch methods agree on a batch *)
Definition similar_batch (bm : bmodel X Y) (bm' : bmodel X' Y') (B : list (X * Y)) (B' : list (X' * Y')) : Prop :=
  (forall w w', V w w' ->
     rel_res (each sample_label B B') (bm_laug bm (map fst B) (map snd B) w) (bm_laug bm' (map fst B') (map snd B') w')) /\
  (forall Yh Yh', each sample_label B B' Yh Yh' ->
     bm_loss bm (map snd B) Yh = bm_loss bm' (map snd B') Yh' /\
     rel_res V (bm_joint bm (map fst B) Yh None) (bm_joint bm' (map fst B') Yh' None) /\
     rel_res V (bm_joint bm (map fst B) Yh (Some (map snd B))) (bm_joint bm' (map fst B') Yh' (Some (map snd B')))).
(** the two models agree sample by sample and on every non-empty batch of such samples *)
Definition similar_models (n n' : nat) (bm : bmodel X Y) (bm' : bmodel X' Y') : Prop :=
  similar_sizes n n' (bm_s bm) (bm_s bm') /\
  (forall B B', Forall2 (similar (bm_s bm) (bm_s bm')) B B' -> B <> [] -> similar_batch bm bm' B B').

(** negativity_constraint names corresponding weights *)
Definition similar_neg (n n' : nat) (neg neg' : option (list nat)) : Prop :=
  match neg, neg' with
  | None, None => True
  | Some l, Some l' => Forall2 (fun i i' => (i < n)%nat /\ (i' < n')%nat /\ forall v v', V v v' -> get1 v i = get1 v' i') l l'
  | _, _ => False
  end.

(** working sets and caches *)
Definition similar_ncon (p : X * Y) (p' : X' * Y') (c : ncon Y) (c' : ncon Y') : Prop :=
  sample_label p p' (fst (fst c)) (fst (fst c')) /\ V (snd (fst c)) (snd (fst c')) /\ snd c = snd c'.
Definition similar_ncons (p : X * Y) (p' : X' * Y') : list (ncon Y) -> list (ncon Y') -> Prop := Forall2 (similar_ncon p p').
Definition similar_ns (S : list (X * Y)) (S' : list (X' * Y')) (st : ns_state Y) (st' : ns_state Y') : Prop :=
  V (st_w st) (st_w st') /\ each similar_ncons S S' (st_cons st) (st_cons st') /\
  st_active st = st_active st' /\ st_objective st = st_objective st'.
Definition similar_ocon (c c' : list Qc * Qc) : Prop := V (fst c) (fst c') /\ snd c = snd c'.
Definition similar_entry (p : X * Y) (p' : X' * Y') (c : list Qc * Qc * Y) (c' : list Qc * Qc * Y') : Prop :=
  V (fst (fst c)) (fst (fst c')) /\ snd (fst c) = snd (fst c') /\ sample_label p p' (snd c) (snd c').
Definition similar_icache (S : list (X * Y)) (S' : list (X' * Y')) (c : option (list (list (list Qc * Qc * Y)))) (c' : option (list (list (list Qc * Qc * Y')))) : Prop :=
  match c, c' with
  | Some a, Some a' => each (fun p p' => Forall2 (similar_entry p p')) S S' a a'
  | None, None => True
  | _, _ => False
  end.
Definition similar_os (S : list (X * Y)) (S' : list (X' * Y')) (st : os_state Y) (st' : os_state Y') : Prop :=
  V (o_w st) (o_w st') /\ Forall2 similar_ocon (o_cons st) (o_cons st') /\ o_alphas st = o_alphas st' /\
  o_slack st = o_slack st' /\ similar_icache S S' (o_icache st) (o_icache st') /\ o_curve st = o_curve st' /\
  o_primal st = o_primal st' /\ o_cached st = o_cached st' /\ o_ctol st = o_ctol st' /\ o_obj st = o_obj st'.
Definition similar_attrs (S : list (X * Y)) (S' : list (X' * Y')) (a : os_attrs Y) (a' : os_attrs Y') : Prop :=
  V (oa_w a) (oa_w a') /\
  match oa_cons a, oa_cons a' with
  | Some c, Some c' => Forall2 similar_ocon c c'
  | None, None => True
  | _, _ => False
  end /\ oa_alphas a = oa_alphas a' /\ similar_icache S S' (oa_icache a) (oa_icache a') /\
  oa_curve a = oa_curve a' /\ oa_primal a = oa_primal a' /\ oa_cached a = oa_cached a'.
Definition similar_warm (S : list (X * Y)) (S' : list (X' * Y')) (ws : warm Y) (ws' : warm Y') : Prop :=
  match ws, ws' with
  | Cold, Cold => True
  | Soft a, Soft a' => similar_attrs S S' a a'
  | Warm a, Warm a' => similar_attrs S S' a a'
  | _, _ => False
  end.
(** the comparisons of labels agree *)
Definition similar_eq (S : list (X * Y)) (S' : list (X' * Y')) {T} (eq : Y -> Y -> T) (eq' : Y' -> Y' -> T) : Prop :=
  forall p p' y y' z z', In (p, p') (combine S S') -> sample_label p p' y y' -> sample_label p p' z z' -> eq y z = eq' y' z'.
(** the models after switching to another inference method, if there is one *)
Definition similar_switch (n n' : nat) (sw : option (smodel X Y)) (sw' : option (smodel X' Y')) (S : list (X * Y)) (S' : list (X' * Y')) : Prop :=
  match sw, sw' with
  | Some m, Some m' => similar_samples n n' m m' S S'
  | None, None => True
  | _, _ => False
  end.
Definition similar_bswitch (n n' : nat) (sw : option (bmodel X Y)) (sw' : option (bmodel X' Y')) (S : list (X * Y)) (S' : list (X' * Y')) : Prop :=
  match sw, sw' with
  | Some m, Some m' => similar_models n n' m m' /\ Forall2 (similar (bm_s m) (bm_s m')) S S'
  | None, None => True
  | _, _ => False
  end.
(** options that agree, apart from the names of the weights *)
Definition similar_nparams (n n' : nat) (prm prm' : ns_params) : Prop :=
  ns_C prm = ns_C prm' /\ ns_max_iter prm = ns_max_iter prm' /\ ns_tol prm = ns_tol prm' /\ ns_check prm = ns_check prm' /\ ns_break prm = ns_break prm' /\
  similar_neg n n' (ns_neg prm) (ns_neg prm') /\ ns_batch prm = ns_batch prm' /\ ns_threshold prm = ns_threshold prm' /\ ns_window prm = ns_window prm'.
Definition similar_oparams (n n' : nat) (prm prm' : os_params) : Prop :=
  o_C prm = o_C prm' /\ o_max_iter prm = o_max_iter prm' /\ o_tol prm = o_tol prm' /\ o_check prm = o_check prm' /\ o_break prm = o_break prm' /\
  similar_neg n n' (o_neg prm) (o_neg prm') /\ o_cache prm = o_cache prm' /\ o_threshold prm = o_threshold prm' /\ o_window prm = o_window prm' /\ o_cache_tol prm = o_cache_tol prm'.
(** attributes of a fitted subgradient learner, result of Frank-Wolfe *)
Definition similar_sgl (A A' : sg_learner) : Prop :=
  sl_t A = sl_t A' /\ match sl_fitted A, sl_fitted A' with
                      | Some (w, lr, c), Some (w', lr', c') => V w w' /\ lr = lr' /\ c = c'
                      | None, None => True
                      | _, _ => False
                      end.
Definition similar_fwr (q q' : list Qc * Qc * list Qc * list Qc) : Prop :=
  let '(w, l, pr, cu) := q in let '(w', l', pr', cu') := q' in V w w' /\ l = l' /\ pr = pr' /\ cu = cu'.
End Similar.

(** ** A multiclass problem and the graphs with one node *)
(** the same weights, followed by zeros *)
Definition padded (n n' : nat) (v v' : list Qc) : Prop := length v = n /\ v' = v ++ vzero (n' - n).
Definition node_label (k F : nat) (x : list Qc) (x' : graph_x) (y : nat) (y' : list nat) : Prop :=
  length x = F /\ x' = node_x x /\ (y < k)%nat /\ y' = node_y y.
(** without edges, the solver labels a node by its first best state *)
Definition first_best_node (k : nat) (solve : solver) : Prop :=
  forall row P, length row = k -> mrows P = k -> mcols P = k ->
    solve (Mat 1 k [row]) (Pw2 P) [] = (let! s := np_argmax row in Ok [s]).
