(** plot_learning on aligned curves, and where it fails. *)
From Coq Require Import Sorted Lia.
From Verif Require Import Base.QcBase Base.Sums Model.Curves Model.PlotLearning Spec.CurveSpec Proofs.Arrays
  Proofs.CurveProofs Proofs.CurveProofs2 Proofs.CurveProofs3 Proofs.CurveProofs4.

Lemma plot_ok xs ys : length xs = length ys -> plot xs ys = Ok (xs, ys).
Proof. intros E. unfold plot. rewrite E, Nat.eqb_refl. reflexivity. Qed.
Lemma bool_index_ok (l : list Qc) m : length l = length m ->
  bool_index l m = Ok (map (fun i => nth i l 0) (filter (fun i => nth i m false) (seq 0 (length l)))).
Proof. intros E. unfold bool_index. rewrite E, Nat.eqb_refl, <- E. f_equal. apply masked_spec. exact E. Qed.
Lemma negb_map c i : nth i (map negb c) false = negb (nth i c true).
Proof. change false with (negb true). apply map_nth. Qed.

(** the x-coordinates are given *)
Lemma plot_with xs time every b o :
  b_obj b = Some o -> o <> [] -> plot_inds time (b_times b) (length o) = Ok xs -> length xs = length o ->
  (forall p, b_primal b = Some p -> length p = length o) ->
  (forall c, b_cached b = Some c -> length c = length o /\ (exists p, b_primal b = Some p) /\ (c <> [] -> last c true = false)) ->
  exists d, plot_learning time every b = Ok d /\ draws every b xs d.
Proof.
  intros O N I L P C. unfold plot_learning. rewrite O. cbn [attribute bind].
  rewrite (last_entry_nth o 0 N). cbn [bind].
  assert (E : forall loss, plot_error every xs loss =
     if negb (every =? 0)%nat && (length (due every (length o)) =? length loss)%nat
     then (map (fun i => nth i xs 0) (due every (length o)), loss) else (map ofN (seq 0 (length loss)), loss)).
  { intros loss. unfold plot_error. destruct (every =? 0)%nat eqn:Z.
    - unfold every_nth. rewrite Z. reflexivity.
    - rewrite every_nth_spec by (intros ->; discriminate Z). rewrite L. cbn [bind negb andb]. unfold plot. rewrite map_length.
      destruct (length (due every (length o)) =? length loss)%nat; reflexivity. }
  destruct (b_cached b) as [c|] eqn:Ec.
  - destruct (C c eq_refl) as (Lc & (p & Ep) & La). rewrite Ep. specialize (P p Ep). cbn [attribute bind].
    assert (Nc : c <> []) by (intros ->; destruct o; [congruence|discriminate Lc]).
    assert (Ei : invert c = Ok (map negb c)) by (destruct c; [congruence|reflexivity]). rewrite Ei. cbn [bind].
    rewrite bool_index_ok by (rewrite map_length; lia). cbn [bind].
    assert (F : forall n, filter (fun i => nth i (map negb c) false) (seq 0 n) = filter (fun i => negb (nth i c true)) (seq 0 n)).
    { intros n. apply filter_ext. intros i. apply negb_map. }
    assert (Last : filter (fun i => negb (nth i c true)) (seq 0 (length p)) =
       filter (fun i => negb (nth i c true)) (seq 0 (length o - 1)) ++ [(length o - 1)%nat]).
    { rewrite P. destruct o as [|o1 o2]; [congruence|]. cbn [length]. replace (S (length o2) - 1)%nat with (length o2) by lia.
      rewrite seq_S, filter_app. f_equal. cbn [filter plus]. specialize (La Nc). rewrite last_nth in La.
      rewrite Lc in La. cbn [length] in La. replace (S (length o2) - 1)%nat with (length o2) in La by lia. rewrite La. reflexivity. }
    rewrite F.
    assert (LE : last_entry (map (fun i => nth i p 0) (filter (fun i => negb (nth i c true)) (seq 0 (length p)))) = Ok (nth (length o - 1) p 0)).
    { rewrite Last, map_app. cbn [map]. set (u := map _ _). clearbody u.
      rewrite (last_entry_nth _ 0) by (destruct u; discriminate). f_equal.
      rewrite app_length. cbn [length]. replace (length u + 1 - 1)%nat with (length u) by lia.
      rewrite app_nth2, Nat.sub_diag by lia. reflexivity. }
    rewrite LE. cbn [bind]. rewrite I. cbn [bind]. rewrite plot_ok by lia. cbn [bind]. rewrite plot_ok by lia. cbn [bind].
    rewrite firstn_all2 by (rewrite map_length; lia).
    rewrite !bool_index_ok by (rewrite map_length; lia). cbn [bind]. rewrite !F, plot_ok by (rewrite !map_length, L, P; reflexivity).
    cbn [bind]. eexists. split; [reflexivity|]. exists o. cbn. rewrite Ep, Ec. cbn.
    split; [exact O|]. do 4 (split; [reflexivity|]). split.
    + split; [rewrite L, P; reflexivity|reflexivity].
    + destruct (b_loss b); [rewrite E; reflexivity|reflexivity].
  - cbn [bind]. rewrite I. cbn [bind]. rewrite plot_ok by lia. cbn [bind].
    destruct (b_primal b) as [p|] eqn:Ep.
    + rewrite plot_ok by (specialize (P p eq_refl); lia). cbn [bind]. eexists. split; [reflexivity|]. exists o. cbn. rewrite Ep, Ec. cbn.
      split; [exact O|]. do 4 (split; [reflexivity|]). split; [auto|]. destruct (b_loss b); [rewrite E; reflexivity|reflexivity].
    + cbn [bind]. eexists. split; [reflexivity|]. exists o. cbn. rewrite Ep, Ec. cbn.
      split; [exact O|]. do 4 (split; [reflexivity|]). split; [auto|]. destruct (b_loss b); [rewrite E; reflexivity|reflexivity].
Qed.
Lemma minutes_length ts n : length (minutes ts n) = n.
Proof. unfold minutes. rewrite map_length, seq_length. reflexivity. Qed.

Lemma draws_time extra every b ts o : curves_aligned extra b -> b_times b = Some ts -> b_obj b = Some o -> (2 <= length o)%nat ->
  exists d, plot_learning true every b = Ok d /\ draws every b (minutes ts (length o)) d.
Proof.
  intros (ts' & o' & T & O & L & P & C) T' O' N. rewrite T in T'. injection T' as ->. rewrite O in O'. injection O' as ->.
  apply (plot_with _ _ _ _ _ O); auto.
  - intros ->; cbn in N; lia.
  - rewrite T. apply plot_inds_time; lia.
  - apply minutes_length.
Qed.
Lemma arange_length n : length (arange n) = n.
Proof. unfold arange. rewrite map_length, seq_length. reflexivity. Qed.
Lemma draws_iterations extra every b o : curves_aligned extra b -> b_obj b = Some o -> o <> [] ->
  exists d, plot_learning false every b = Ok d /\ draws every b (map ofN (seq 0 (length o))) d.
Proof.
  intros (ts & o' & _ & O' & _ & P & C) O N. rewrite O in O'. injection O' as <-.
  apply (plot_with _ _ _ _ _ O N); auto. apply arange_length.
Qed.
(** the axis of the training error *)
Lemma error_axis every b xs d : draws every b xs d -> losses_due every b -> every <> 0%nat ->
  forall o loss, b_obj b = Some o -> b_loss b = Some loss -> o <> [] ->
  d_error d = Some (if ((length o - 1) mod every =? 0)%nat then (map ofN (seq 0 (length loss)), loss)
                    else (map (fun i => nth i xs 0) (due every (length o)), loss)).
Proof.
  intros (o' & O' & _ & _ & _ & _ & _ & E) (o'' & O'' & D) N o loss O Hl No.
  rewrite O in O', O''. injection O' as <-. injection O'' as <-. rewrite Hl in E, D. rewrite E. clear E.
  destruct (every =? 0)%nat eqn:Z; [apply Nat.eqb_eq in Z; congruence|]. cbn [negb andb].
  destruct o as [|o1 o2]; [congruence|]. cbn [length] in *. replace (S (length o2) - 1)%nat with (length o2) in * by lia.
  rewrite (due_S _ _ N), D. destruct (length o2 mod every =? 0)%nat.
  - destruct (length (due every (length o2)) + 1 =? length (due every (length o2)))%nat eqn:X; [apply Nat.eqb_eq in X; lia|reflexivity].
  - rewrite Nat.add_0_r, Nat.eqb_refl. reflexivity.
Qed.
(** one entry only: nothing can be drawn over time *)
Lemma one_entry every b v ts : b_obj b = Some [v] -> b_times b = Some ts -> b_cached b = None ->
  plot_learning true every b = Err IndexError.
Proof.
  intros O T C. unfold plot_learning. rewrite O, C, T. cbn. unfold slice. cbn. reflexivity.
Qed.

(** SubgradientSSVM and SubgradientLatentSSVM that stop in the first epoch *)
Lemma sg_first_epoch now lg every max its v k b r :
  b_cached b = None -> (max = 0%nat \/ si_break (its 0%nat) = true) ->
  sg_curves now lg every max false its v None k b = Ok r ->
  plot_learning true every (r_book r) = Err IndexError.
Proof.
  intros C S H. unfold sg_curves in H. cbn [bind] in H. apply fit_inv in H. cbn [until] in H.
  assert (E : sg_prog every its max 0 = []) by (destruct S as [->| S]; [reflexivity|destruct max; cbn; [reflexivity|rewrite S; reflexivity]]).
  rewrite E in H. cbn in H. injection H as <-.
  destruct lg; cbn; rewrite C; reflexivity.
Qed.
Lemma lsg_first_epoch now lg every max its v k b r :
  b_cached b = None -> (max = 0%nat \/ si_break (its 0%nat) = true) ->
  lsg_curves now lg every max false its v None k b = Ok r ->
  plot_learning true every (r_book r) = Err IndexError.
Proof.
  intros C S H. unfold lsg_curves in H. cbn [bind] in H. apply fit_inv in H. cbn [until] in H.
  assert (E : lsg_prog every its max 0 = [] \/ lsg_prog every its max 0 = [AStamp])
    by (destruct S as [->| S]; [left; reflexivity|destruct max; cbn; [left; reflexivity|rewrite S; right; reflexivity]]).
  destruct E as [E|E]; rewrite E in H; cbn in H; injection H as <-; destruct lg; cbn; rewrite C; reflexivity.
Qed.
(** SubgradientSSVM: objectives are drawn at the stamp of the following epoch *)
Lemma minutes_nth ts n i : (i < n)%nat -> nth i (minutes ts n) 0 = nth (Nat.min (i + 2) n) ts 0 / ofN 60.
Proof. intros H. unfold minutes. rewrite nth_map_seq by exact H. reflexivity. Qed.
