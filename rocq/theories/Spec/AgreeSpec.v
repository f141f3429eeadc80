(** Specification vocabulary for the agreement of the learners. *)
From Verif Require Export Spec.SubgradientRateSpec Spec.SpanSpec Spec.FWRateSpec.

(** Output [yp] scores best on [x], and its lead over every other output is more than sqrt D times
    the distance of their joint features. *)
Definition clear_winner {X Y} (T : task X Y) (w : list Qc) (x : X) (yp : Y) (D : Qc) : Prop :=
  t_label T x yp /\ forall y', t_label T x y' -> y' <> yp ->
    let lead := dot w (t_feat T x yp) - dot w (t_feat T x y') in
    0 < lead /\ D * normsq (vsub (t_feat T x yp) (t_feat T x y')) < lead * lead.
(** Weights with a bound on how far their objective is from the smallest one. *)
Definition close_pairs (l : list (list Qc * Qc)) : Prop :=
  forall a b, In a l -> In b l -> normsq (vsub (fst a) (fst b)) <= ofN 4 * (snd a + snd b).
