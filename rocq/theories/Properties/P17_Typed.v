(** C42, C43, C44, C58 and the NodeTypeEdgeFeatureGraphCRF part of C02. *)
From Coq Require Import String ZArith.
From Verif Require Import Model.Typed Spec.TypedSpec Proofs.TypedProofs Proofs.TypedLabels Proofs.TypedScore Proofs.TypedJoint
  Proofs.TypedLoss Proofs.TypedInference Proofs.TypedExamples Proofs.OgmProofs.

(** ** Construction *)
(** The constructor accepts exactly consistent type descriptions with an AD3 method; without
    class weights all weights are 1. *)
Theorem C42_constructor :
  forall (n : nat) (states features : list nat) (nef : list (list nat)) (m : string) (cw : option (list (list Qc))),
    (forall g, ty_setup n states features nef m cw = Ok g ->
       well_typed g /\ ty_states g = states /\ ty_features g = features /\ ty_edge_features g = nef /\ length states = n /\
       ty_method g = m /\ ty_exception g = false /\ (m = "ad3"%string \/ m = "ad3+"%string) /\
       ty_weights g = match cw with Some (c :: r) => c :: r | _ => map (fun k => repeat 1%Qc k) states end) /\
    ((0 < n)%nat -> length states = n -> length features = n -> length nef = n ->
     Forall (fun r => length r = n) nef ->
     (forall i j, (i < n)%nat -> (j < n)%nat -> nth j (nth i nef []) O = nth i (nth j nef []) O) ->
     m = "ad3"%string \/ m = "ad3+"%string ->
     (forall c, cw = Some c -> c = [] \/ (length c = n /\ forall t, (t < n)%nat -> length (nth t c []) = part states t)) ->
     exists g, ty_setup n states features nef m cw = Ok g).
Proof. intros. split; [intro g; apply setup_ok|apply setup_complete]. Qed.

(** ** C42: labels *)
(** flattenY concatenates the labels of the types, shifted by the states of the types before. *)
Theorem C42_flatten :
  forall (g : ty_crf) (lY : list (list Z)) (y : list Z),
    length lY = length (ty_states g) -> flattenY g lY = Ok y ->
    length y = list_sum (map (@length Z) lY) /\
    forall t i, (t < length lY)%nat -> (i < length (nth t lY []))%nat ->
      nth (before (map (@length Z) lY) t + i) y 0%Z = (nth i (nth t lY []) 0 + Z.of_nat (before (ty_states g) t))%Z.
Proof. exact flatten_ok. Qed.
Theorem C42_flatten_total :
  forall (g : ty_crf) (lY : list (list Z)),
    length lY = length (ty_states g) -> (0 < length lY)%nat -> exists y, flattenY g lY = Ok y.
Proof. exact flatten_total. Qed.
(** unflattenY undoes flattenY, and flattenY undoes unflattenY. *)
Theorem C42_round_trip :
  forall (g : ty_crf) (x : typed_x) (lY : list (list Z)) (y : list Z),
    length lY = length (ty_states g) -> length (tx_nodes x) = length lY ->
    (forall t, (t < length lY)%nat -> exists m, nth t (tx_nodes x) None = Some m /\ mrows m = length (nth t lY [])) ->
    flattenY g lY = Ok y -> unflattenY g x y = Ok lY.
Proof. exact unflatten_flatten. Qed.
Theorem C42_round_trip_back :
  forall (g : ty_crf) (x : typed_x) (y : list Z) (lY : list (list Z)),
    tx_nodes x <> [] -> unflattenY g x y = Ok lY -> flattenY g lY = Ok y.
Proof. exact flatten_unflatten. Qed.
(** A wrong number of labels is refused; a type without a feature array (None) makes unflattenY
    fail although _check_size_x accepts such instances. *)
Theorem C42_unflatten_length_mismatch :
  forall (g : ty_crf) (x : typed_x) (y : list Z),
    Forall (fun o => exists m, o = Some m) (tx_nodes x) -> (length (tx_nodes x) <= S (length (ty_states g)))%nat ->
    length y <> list_sum (map (fun o => match o with Some m => mrows m | None => O end) (tx_nodes x)) ->
    unflattenY g x y = Err ValueError.
Proof. exact unflatten_length_mismatch. Qed.
Theorem C42_unflatten_without_features_fails :
  forall (g : ty_crf) (x : typed_x) (y : list Z) (t : nat),
    (t < length (ty_states g))%nat -> nth_error (tx_nodes x) t = Some None -> unflattenY g x y = Err AttributeError.
Proof. exact unflatten_none. Qed.
(** Labels of different types never collide. *)
Theorem C42_no_collision :
  forall (g : ty_crf) (lY : list (list Z)) (y : list Z) (t1 i1 t2 i2 : nat),
    length lY = length (ty_states g) -> flattenY g lY = Ok y ->
    (forall t z, (t < length lY)%nat -> In z (nth t lY []) -> (0 <= z < Z.of_nat (part (ty_states g) t))%Z) ->
    (t1 < length lY)%nat -> (i1 < length (nth t1 lY []))%nat -> (t2 < length lY)%nat -> (i2 < length (nth t2 lY []))%nat ->
    let pos t i := (before (map (@length Z) lY) t + i)%nat in
    nth (pos t1 i1) y 0%Z = nth (pos t2 i2) y 0%Z ->
    t1 = t2 /\ nth i1 (nth t1 lY []) 0%Z = nth i2 (nth t2 lY []) 0%Z.
Proof. exact flatten_no_collision. Qed.
(** _check_size_x accepts exactly the typed instances; anything else is a ValueError. *)
Theorem C42_check_x :
  forall (g : ty_crf) (x : typed_x), well_typed g ->
    (ty_check_x g x = Ok tt <-> typed_instance g x) /\ (forall e, ty_check_x g x = Err e -> e = ValueError).
Proof. intros g x W. split; [apply check_x_spec; exact W|]. intro e. apply check_x_error. exact W. Qed.
(** _check_size_xy accepts exactly one label of the right type per node. *)
Theorem C42_check_xy :
  forall (g : ty_crf) (x : typed_x) (y : list Z),
    well_typed g -> (length (ty_states g) <= length (tx_nodes x))%nat ->
    let rows := type_rows (length (ty_states g)) x in
    (ty_check_xy g x y = Ok tt <-> typed_labelling (ty_states g) rows y) /\
    (forall e, ty_check_xy g x y = Err e -> e = ValueError \/ e = InconsistentLabel) /\
    (length y <> list_sum rows -> ty_check_xy g x y = Err ValueError) /\
    (length y = list_sum rows -> Forall (fun z => (0 <= z)%Z) y -> ~ typed_labelling (ty_states g) rows y ->
       ty_check_xy g x y = Err InconsistentLabel).
Proof. exact check_xy_spec. Qed.
Theorem C42_flattened_is_valid :
  forall (g : ty_crf) (x : typed_x) (lY : list (list Z)) (y : list Z),
    well_typed g -> length lY = length (ty_states g) -> (length (ty_states g) <= length (tx_nodes x))%nat ->
    (forall t, (t < length lY)%nat -> x_rows x t = length (nth t lY [])) ->
    (forall t z, (t < length lY)%nat -> In z (nth t lY []) -> (0 <= z < Z.of_nat (part (ty_states g) t))%Z) ->
    flattenY g lY = Ok y -> ty_check_xy g x y = Ok tt.
Proof. exact flatten_valid. Qed.
(** initialize checks a single instance completely, and a list of instances not at all. *)
Theorem C42_initialize_single :
  forall (g : ty_crf) (x : typed_x) (y : list Z), well_typed g ->
    (ty_initialize g (inr x) (Some (inr y)) = Ok tt <->
     typed_instance g x /\ typed_labelling (ty_states g) (type_rows (length (ty_states g)) x) y).
Proof. exact initialize_tuple. Qed.
Theorem C42_initialize_list_unchecked :
  forall (g : ty_crf) (X : list typed_x) (Y : option (list (list Z) + list Z)), ty_initialize g (inl X) Y = Ok tt.
Proof. exact initialize_list. Qed.

(** ** C43: potentials and joint features *)
Theorem C43_unary_potentials :
  forall (g : ty_crf) (x : typed_x) (w : list Qc),
    well_typed g -> typed_instance g x -> length w = ty_size g ->
    exists Us, ty_unary g x w = Ok Us /\ length Us = length (ty_states g) /\
      forall t, (t < length (ty_states g))%nat ->
        let U := nth t Us (Mat 0 0 []) in
        mat_ok U /\ mrows U = x_rows x t /\ mcols U = part (ty_states g) t /\
        forall i s, (i < x_rows x t)%nat -> (s < part (ty_states g) t)%nat -> mget U i s = type_score g w t (x_feat x t i) s.
Proof. exact ty_unary_ok. Qed.
(** A pair of types without edge features or states gets an empty array. *)
Theorem C43_pairwise_potentials :
  forall (g : ty_crf) (x : typed_x) (w : list Qc),
    well_typed g -> typed_instance g x -> length w = ty_size g ->
    let n := length (ty_states g) in
    exists Ps, ty_pairwise g x w = Ok Ps /\ length Ps = (n * n)%nat /\
      forall a b, (a < n)%nat -> (b < n)%nat ->
        let P := nth (a * n + b) Ps (Pw3 0 0 0 []) in
        (if (pair_size g a b =? 0)%nat then P = Pw3 0 0 0 []
         else exists d, P = Pw3 (length (x_edges n x a b)) (part (ty_states g) a) (part (ty_states g) b) d /\
                        length d = length (x_edges n x a b)) /\
        forall e s s', (e < length (x_edges n x a b))%nat -> (s < part (ty_states g) a)%nat -> (s' < part (ty_states g) b)%nat ->
          pair_entry P e s s' = pair_types_score g w a b (x_edge_feat n x a b e) s s'.
Proof. exact ty_pairwise_ok. Qed.
(** The joint feature of every labelling: its product with the weights is the score, which is
    also the score of the potentials handed to inference. *)
Theorem C43_joint_feature :
  forall (g : ty_crf) (x : typed_x) (y : list Z),
    well_typed g -> typed_instance g x ->
    let n := length (ty_states g) in
    typed_labelling (ty_states g) (type_rows n x) y ->
    exists psi, ty_joint_feature g x (TDiscrete y) = Ok psi /\ length psi = ty_size g /\
      forall w, length w = ty_size g ->
        dot w psi = ty_score g x w y /\
        forall Us Ps, ty_unary g x w = Ok Us -> ty_pairwise g x w = Ok Ps ->
          dot w psi = potentials_score n (x_rows x) (x_edges n x) Us Ps (typed_lab (ty_states g) (type_rows n x) y).
Proof.
  intros g x y W T n Y. destruct (ty_joint_discrete g x y W T Y) as [psi [E [L S]]]. exists psi. split; [exact E|]. split; [exact L|].
  intros w Hw. split; [apply S; exact Hw|]. intros Us Ps EU EP. rewrite S by exact Hw. symmetry. apply potentials_ty_score; assumption.
Qed.
(** Relaxed labellings, as lists of arrays or as one array with one block per type. *)
Theorem C43_joint_feature_relaxed :
  forall (g : ty_crf) (x : typed_x) (ums pms : list mat),
    well_typed g -> typed_instance g x ->
    let n := length (ty_states g) in
    length ums = n -> length pms = (n * n)%nat ->
    (forall t, (t < n)%nat -> mrows (nth t ums (Mat 0 0 [])) = x_rows x t /\ mcols (nth t ums (Mat 0 0 [])) = part (ty_states g) t) ->
    (forall a b, (a < n)%nat -> (b < n)%nat ->
       mrows (nth (a * n + b) pms (Mat 0 0 [])) = length (x_edges n x a b) /\
       mcols (nth (a * n + b) pms (Mat 0 0 [])) = (part (ty_states g) a * part (ty_states g) b)%nat) ->
    exists psi, ty_joint_feature g x (TRelaxed (MList ums) (MList pms)) = Ok psi /\ length psi = ty_size g /\
      forall w, length w = ty_size g -> dot w psi =
        sumn n (fun t => sumn (x_rows x t) (fun i => sumn (part (ty_states g) t) (fun s =>
          mget (nth t ums (Mat 0 0 [])) i s * type_score g w t (x_feat x t i) s))) +
        sumn n (fun a => sumn n (fun b => sumn (length (x_edges n x a b)) (fun e =>
          sumn (part (ty_states g) a) (fun s => sumn (part (ty_states g) b) (fun s' =>
            mget (nth (a * n + b) pms (Mat 0 0 [])) e (s * part (ty_states g) b + s') *
            pair_types_score g w a b (x_edge_feat n x a b e) s s'))))).
Proof.
  intros g x ums pms W T n L1 L2 S1 S2. apply joint_lists; [exact W|exact T|]. split; [exact L1|]. split; [exact L2|]. split; assumption.
Qed.
Theorem C43_joint_feature_relaxed_arrays :
  forall (g : ty_crf) (x : typed_x) (um pm : mat),
    well_typed g -> typed_instance g x ->
    let n := length (ty_states g) in
    let rows := type_rows n x in
    mrows um = list_sum rows -> mcols um = list_sum (ty_states g) ->
    mrows pm = TypedSpec.pairs_before (fun a b => length (x_edges n x a b)) n n 0 ->
    mcols pm = TypedSpec.pairs_before (fun a b => part (ty_states g) a * part (ty_states g) b)%nat n n 0 ->
    exists psi, ty_joint_feature g x (TRelaxed (MArray um) (MArray pm)) = Ok psi /\ length psi = ty_size g /\
      forall w, length w = ty_size g -> dot w psi =
        sumn n (fun t => sumn (x_rows x t) (fun i => sumn (part (ty_states g) t) (fun s =>
          mget um (before rows t + i) (before (ty_states g) t + s) * type_score g w t (x_feat x t i) s))) +
        sumn n (fun a => sumn n (fun b => sumn (length (x_edges n x a b)) (fun e =>
          sumn (part (ty_states g) a) (fun s => sumn (part (ty_states g) b) (fun s' =>
            mget pm (TypedSpec.pairs_before (fun a b => length (x_edges n x a b)) n a b + e)
                    (TypedSpec.pairs_before (fun a b => part (ty_states g) a * part (ty_states g) b)%nat n a b + (s * part (ty_states g) b + s')) *
            pair_types_score g w a b (x_edge_feat n x a b e) s s'))))).
Proof. exact joint_arrays. Qed.

(** ** C02 *)
Theorem C02_typed_size : forall (g : ty_crf), well_typed g -> ty_size g = weights_size g.
Proof. exact size_weights. Qed.
Theorem C02_typed_size_checks :
  forall (b : backends) (g : ty_crf) (x : typed_x) (w : list Qc) (y : list Z) (l : ty_label) (relaxed : bool) (cs : list logic_constraint),
    (length w <> ty_size g ->
       ty_unary g x w = Err ValueError /\ ty_pairwise g x w = Err ValueError /\
       ty_inference b g x w relaxed cs = Err ValueError /\ ty_loss_augmented_inference b g x y w relaxed = Err ValueError) /\
    (well_typed g -> ~ typed_instance g x -> ty_joint_feature g x l = Err ValueError).
Proof.
  intros. split.
  - intro H. destruct (ty_wrong_size b g x y w relaxed cs H) as [A B].
    unfold ty_unary, ty_pairwise, check_size_w. replace (length w =? ty_size g)%nat with false by (symmetry; apply Nat.eqb_neq; exact H).
    split; [reflexivity|]. split; [reflexivity|]. auto.
  - intros W N. unfold ty_joint_feature. destruct (ty_check_x g x) as [[]|e] eqn:E.
    + exfalso. apply N. apply (proj1 (check_x_spec g x W)). exact E.
    + rewrite (check_x_error g x e W E). reflexivity.
Qed.

(** ** C44: loss augmentation *)
Theorem C44_entries :
  forall (g : ty_crf) (x : typed_x) (us : list mat) (y : list Z),
    well_typed g -> typed_potentials g x us ->
    let n := length (ty_states g) in let rows := type_rows n x in
    typed_labelling (ty_states g) rows y ->
    exists us', ty_loss_augment g us y = Ok us' /\ typed_potentials g x us' /\
      forall t, (t < n)%nat -> mat_ok (nth t us' (Mat 0 0 [])) /\
        forall i s, (i < x_rows x t)%nat -> (s < part (ty_states g) t)%nat ->
          let k := typed_lab (ty_states g) rows y t i in
          mget (nth t us' (Mat 0 0 [])) i s =
          mget (nth t us (Mat 0 0 [])) i s + if (k =? s)%nat then 0 else get1 (nth t (ty_weights g) []) k.
Proof. intros g x us y W SH. exact (ty_laug_ok g x us W SH y). Qed.
(** The augmented potentials score y' with its score plus the loss of y'. *)
Theorem C44_adds_the_loss :
  forall (g : ty_crf) (x : typed_x) (us us' : list mat) (Ps : list pairwise) (y y' : list nat),
    well_typed g -> typed_potentials g x us ->
    let n := length (ty_states g) in let rows := type_rows n x in
    typed_labelling (ty_states g) rows (map Z.of_nat y) -> typed_labelling (ty_states g) rows (map Z.of_nat y') ->
    ty_loss_augment g us (map Z.of_nat y) = Ok us' ->
    exists l, loss (Some (ty_class_weight g)) y y' = Ok l /\
      l = hamming (length y) (get1 (ty_class_weight g)) (lab y) (lab y') /\
      potentials_score n (x_rows x) (x_edges n x) us' Ps (typed_lab (ty_states g) rows (map Z.of_nat y')) =
      potentials_score n (x_rows x) (x_edges n x) us Ps (typed_lab (ty_states g) rows (map Z.of_nat y')) + l.
Proof.
  intros g x us us' Ps y y' W SH n rows Y Y' E. eexists. split.
  - apply (ty_loss_ok g x y y' W Y). destruct Y as [LY _], Y' as [LY' _]. rewrite map_length in LY, LY'. congruence.
  - split; [reflexivity|]. apply laug_score; assumption.
Qed.
(** A label outside of its node's type makes the compiled augmentation read outside its arrays. *)
Theorem C44_wrong_type_reads_out_of_bounds :
  forall (g : ty_crf) (x : typed_x) (us : list mat) (y : list Z),
    well_typed g -> typed_potentials g x us ->
    let n := length (ty_states g) in let rows := type_rows n x in
    length y = list_sum rows -> (forall t, (t < n)%nat -> (0 < part (ty_states g) t)%nat) ->
    ~ typed_labelling (ty_states g) rows y -> ty_loss_augment g us y = Err OutOfBounds.
Proof. intros g x us y W SH. exact (ty_laug_bad g x us W SH y). Qed.
(** The loss of relaxed predictions is linear in the marginals and weighs every node by its own
    label. *)
Theorem C44_continuous_loss :
  forall (g : ty_crf) (x : typed_x) (y : list Z) (ums : list mat),
    well_typed g -> let n := length (ty_states g) in let rows := type_rows n x in
    typed_labelling (ty_states g) rows y -> typed_potentials g x ums ->
    ty_continuous_loss g y ums = Ok (sumn n (fun t => sumn (x_rows x t) (fun i =>
      let k := typed_lab (ty_states g) rows y t i in
      get1 (nth t (ty_weights g) []) k * (1 - mget (nth t ums (Mat 0 0 [])) i k)))).
Proof. exact ty_continuous_ok. Qed.

(** numpy broadcasting: a single row of marginals is charged for every label, no row at all for a single label costs
    nothing, and no row for more labels is refused. *)
Theorem C44_continuous_loss_one_row :
  forall g m y0 ys cws, mrows m = 1%nat -> (0 <= y0 < Z.of_nat (mcols m))%Z -> ys <> [] ->
    mapM (zindex (ty_class_weight g)) (y0 :: ys) = Ok cws ->
    ty_continuous_loss g (y0 :: ys) [m] = Ok (lsum cws * (1 - mget m 0 (Z.to_nat y0))).
Proof. exact continuous_one_row. Qed.
Theorem C44_continuous_loss_no_rows :
  forall g m y0 c, mrows m = 0%nat -> zindex (ty_class_weight g) y0 = Ok c ->
    ty_continuous_loss g [y0] [m] = Ok 0 /\
    forall y1 ys cws, mapM (zindex (ty_class_weight g)) (y0 :: y1 :: ys) = Ok cws -> ty_continuous_loss g (y0 :: y1 :: ys) [m] = Err ValueError.
Proof. exact continuous_no_rows. Qed.

(** ** C58: inference *)
Theorem C58_inference_exact :
  forall (b : backends) (lib : ad3_lib) (plus : bool) (g : ty_crf) (x : typed_x) (w : list Qc) (relaxed : bool),
    b_ad3 b = Some lib -> ty_method g = (if plus then "ad3+"%string else "ad3"%string) ->
    well_typed g -> typed_instance g x -> exact_typed lib plus g x -> length w = ty_size g ->
    let rows := type_rows (length (ty_states g)) x in
    exists yl, ty_inference b g x w relaxed [] = Ok (RLabels yl) /\ typed_labelling (ty_states g) rows (map Z.of_nat yl) /\
      forall y', typed_labelling (ty_states g) rows y' -> ty_score g x w y' <= ty_score g x w (map Z.of_nat yl).
Proof. exact ty_inference_exact. Qed.
Theorem C58_loss_augmented_inference_exact :
  forall (b : backends) (lib : ad3_lib) (plus : bool) (g : ty_crf) (x : typed_x) (y : list nat) (w : list Qc) (relaxed : bool),
    b_ad3 b = Some lib -> ty_method g = (if plus then "ad3+"%string else "ad3"%string) ->
    well_typed g -> typed_instance g x -> exact_typed lib plus g x -> length w = ty_size g ->
    let rows := type_rows (length (ty_states g)) x in
    let delta := fun y' => hamming (length y) (get1 (ty_class_weight g)) (lab y) (lab y') in
    typed_labelling (ty_states g) rows (map Z.of_nat y) ->
    exists yl, ty_loss_augmented_inference b g x (map Z.of_nat y) w relaxed = Ok (RLabels yl) /\
      typed_labelling (ty_states g) rows (map Z.of_nat yl) /\
      forall y', typed_labelling (ty_states g) rows (map Z.of_nat y') ->
        ty_score g x w (map Z.of_nat y') + delta y' <= ty_score g x w (map Z.of_nat yl) + delta yl.
Proof. exact ty_laug_exact. Qed.
(** The learners' view: the theorems about learners apply to this model. *)
Theorem C58_learner_instance :
  forall (b : backends) (lib : ad3_lib) (plus : bool) (g : ty_crf) (x : typed_x) (y : list nat),
    b_ad3 b = Some lib -> ty_method g = (if plus then "ad3+"%string else "ad3"%string) ->
    well_typed g -> typed_instance g x -> exact_typed lib plus g x -> ty_valid_label g x y ->
    implements (ty_smodel b g) (ty_task g) (ty_size g) x y /\
    forall w, length w = ty_size g ->
      exact_laug (ty_smodel b g) (ty_task g) w x y /\ exact_inference (ty_smodel b g) (ty_task g) w x.
Proof.
  intros b lib plus g x y Hb Hm W T EX Y. split; [apply ty_implements; assumption|]. intros w Hw. split.
  - apply (ty_exact_laug b lib plus); assumption.
  - apply (ty_exact_inference b lib plus); assumption.
Qed.
(** setInferenceException has no effect: a fractional solution is rounded silently when no
    relaxation was asked for, whatever the flag. *)
Theorem C58_exception_flag_ignored :
  forall (b : backends) (g : ty_crf) (x : typed_x) (y : list Z) (w : list Qc) (v relaxed : bool) (cs : list logic_constraint),
    ty_inference b (set_inference_exception v g) x w relaxed cs = ty_inference b g x w relaxed cs /\
    ty_loss_augmented_inference b (set_inference_exception v g) x y w relaxed = ty_loss_augmented_inference b g x y w relaxed.
Proof. exact flag_ignored. Qed.
Theorem C58_fractional_answers :
  forall (b : backends) (lib : ad3_lib) (plus : bool) (g : ty_crf) (x : typed_x) (w : list Qc) (us : list mat) (ps : list pairwise)
         (ums pms : list mat) (energy : Qc) (v : bool),
    b_ad3 b = Some lib -> ty_method g = (if plus then "ad3+"%string else "ad3"%string) ->
    well_typed g -> typed_instance g x -> length w = ty_size g -> Forall (fun k => (0 < k)%nat) (ty_states g) ->
    ty_unary g x w = Ok us -> ty_pairwise g x w = Ok ps ->
    solver_call lib plus us (solver_edges x) ps = Ok (ums, pms, energy, Fractional) -> typed_potentials g x ums ->
    exists yl, ty_inference b (set_inference_exception v g) x w false [] = Ok (RLabels yl) /\
               ty_inference b (set_inference_exception v g) x w true [] = Ok (RMarginalsList ums pms).
Proof.
  intros b lib plus g x w us ps ums pms energy v Hb Hm W T Hw PS EU EP ES SM.
  destruct (fractional_silent b lib plus g x w us ps ums pms energy Hb Hm W T Hw PS EU EP ES SM) as [yl [A B]]. exists yl.
  rewrite !(fun r => proj1 (flag_ignored b g x [] w v r [])). auto.
Qed.
(** Constraints reach the library only with the method ad3+. *)
Theorem C58_constraints :
  forall (b : backends) (g : ty_crf) (x : typed_x) (w : list Qc) (relaxed : bool) (c : logic_constraint) (cs : list logic_constraint),
    well_typed g -> typed_instance g x -> length w = ty_size g ->
    (ty_method g = "ad3"%string -> ty_inference b g x w relaxed (c :: cs) = Err TypeError) /\
    (ty_method g = "ad3+"%string -> forall lib us ps,
       b_ad3 b = Some lib -> ty_unary g x w = Ok us -> ty_pairwise g x w = Ok ps ->
       ty_inference b g x w relaxed (c :: cs) =
       let! r := ad3_constraineds lib us (solver_edges x) ps (VConstraints (c :: cs)) (VBool false) in
       let! r' := multi_answer r relaxed false in Ok (fst r')).
Proof.
  intros b g x w relaxed c cs W T Hw. split; [intro Hm; apply ad3_constraints; assumption|].
  intros Hm lib us ps Hb EU EP. apply ad3plus_constraints; assumption.
Qed.
Theorem C58_no_library :
  forall (b : backends) (g : ty_crf) (x : typed_x) (w : list Qc) (relaxed : bool),
    b_ad3 b = None -> (ty_method g = "ad3" \/ ty_method g = "ad3+")%string ->
    well_typed g -> typed_instance g x -> length w = ty_size g -> ty_inference b g x w relaxed [] = Err ImportError.
Proof. exact ty_no_library. Qed.

(** ** Concrete cases *)
(** A library that is exact on every typed instance: exhaustive search. *)
Example exact_library_exists : forall (plus : bool) (g : ty_crf) (x : typed_x),
  typed_instance g x -> Forall (fun k => (0 < k)%nat) (ty_states g) -> exact_typed ex17_lib plus g x.
Proof. exact ex17_exact. Qed.
Example ex17_hypotheses :
  well_typed ex17_g /\ typed_instance ex17_g ex17_x /\ ty_valid_label ex17_g ex17_x ex17_y /\ length ex17_w = ty_size ex17_g /\
  exact_typed ex17_lib false ex17_g ex17_x.
Proof.
  split; [exact ex17_well_typed|]. split; [exact ex17_instance|]. split; [exact ex17_label|]. split; [reflexivity|].
  apply ex17_exact; [exact ex17_instance|]. repeat constructor.
Qed.
Example ex17_setup :
  ty_setup 2 [2; 3]%nat [1; 2]%nat [[1; 1]; [1; 0]]%nat "ad3" (Some [[1; ex17_q 2]; [1; ex17_q 3; 1]]) = Ok ex17_g.
Proof. reflexivity. Qed.
Example ex17_flatten : flattenY ex17_g [[0; 1]; [2]]%Z = Ok [0; 1; 4]%Z /\ unflattenY ex17_g ex17_x [0; 1; 4]%Z = Ok [[0; 1]; [2]]%Z.
Proof. split; reflexivity. Qed.
Example ex17_broadcast :
  match mapM (zindex (ty_class_weight ex17_g)) [0; 1; 4]%Z, ty_continuous_loss ex17_g [0; 1; 4]%Z [Mat 1 2 [[Q2Qc (1 # 4); Q2Qc (3 # 4)]]] with
  | Ok cws, Ok l => map this cws <> [] /\ this l = this (lsum cws * Q2Qc (3 # 4))
  | _, _ => False
  end.
Proof. vm_compute. split; [discriminate|reflexivity]. Qed.
Example ex17_bad_labels :
  ty_check_xy ex17_g ex17_x [0; 2; 4]%Z = Err InconsistentLabel /\ ty_check_xy ex17_g ex17_x [0; 1]%Z = Err ValueError /\
  ty_initialize ex17_g (inl [ex17_x]) (Some (inl [[0; 2; 4]%Z])) = Ok tt.
Proof. repeat split; vm_compute; reflexivity. Qed.
Example ex17_joint :
  match ty_joint_feature ex17_g ex17_x (TDiscrete (map Z.of_nat ex17_y)) with
  | Ok v => map this v = [1; -1; 0; 0; 0; 0; 1; 1; 0; 1; 0; 0; 0; 0; 0; 0; 0; 2; 0; 0; 0; 0; 0; 0]%Q
  | Err _ => False
  end.
Proof. vm_compute. reflexivity. Qed.
Example ex17_inference :
  ty_inference ex17_b ex17_g ex17_x ex17_w false [] = Ok (RLabels [0; 0; 2]%nat) /\
  ty_loss_augmented_inference ex17_b ex17_g ex17_x (map Z.of_nat [0; 0; 2]%nat) (vzero 24) false = Ok (RLabels [1; 1; 3]%nat).
Proof. split; vm_compute; reflexivity. Qed.

Print Assumptions C42_constructor.
Print Assumptions C42_flatten.
Print Assumptions C42_flatten_total.
Print Assumptions C42_round_trip.
Print Assumptions C42_round_trip_back.
Print Assumptions C42_unflatten_length_mismatch.
Print Assumptions C42_unflatten_without_features_fails.
Print Assumptions C42_no_collision.
Print Assumptions C42_check_x.
Print Assumptions C42_check_xy.
Print Assumptions C42_flattened_is_valid.
Print Assumptions C42_initialize_single.
Print Assumptions C42_initialize_list_unchecked.
Print Assumptions C43_unary_potentials.
Print Assumptions C43_pairwise_potentials.
Print Assumptions C43_joint_feature.
Print Assumptions C43_joint_feature_relaxed.
Print Assumptions C43_joint_feature_relaxed_arrays.
Print Assumptions C02_typed_size.
Print Assumptions C02_typed_size_checks.
Print Assumptions C44_entries.
Print Assumptions C44_adds_the_loss.
Print Assumptions C44_wrong_type_reads_out_of_bounds.
Print Assumptions C44_continuous_loss.
Print Assumptions C44_continuous_loss_one_row.
Print Assumptions C44_continuous_loss_no_rows.
Print Assumptions C58_inference_exact.
Print Assumptions C58_loss_augmented_inference_exact.
Print Assumptions C58_learner_instance.
Print Assumptions C58_exception_flag_ignored.
Print Assumptions C58_fractional_answers.
Print Assumptions C58_constraints.
Print Assumptions C58_no_library.
