From Coq Require Import String.
From Verif Require Import Model.Inference Spec.Energy Spec.SolverSpec Spec.InferenceSpec Spec.DispatchSpec
  Proofs.Arrays Proofs.InferenceProofs.
Local Open Scope string_scope.

(** ** dicts *)
Lemma kw_get_app a b k : kw_get (a ++ b)%list k = match kw_get a k with Some v => Some v | None => kw_get b k end.
Proof. induction a as [|[k' v] a IH]; simpl; auto. destruct (String.eqb k' k); auto. Qed.
Lemma keys_forall (P : string -> bool) kw :
  forallb (fun b => P (fst b)) kw = true <-> forall k v, kw_get kw k = Some v -> P k = true.
Proof.
  induction kw as [|[k' v'] kw IH]; simpl; [split; [discriminate|auto]|].
  rewrite andb_true_iff, IH. split.
  - intros [H1 H2] k v. destruct (String.eqb_spec k' k); [intros _; subst; exact H1|apply H2].
  - intro H. split.
    + apply (H k' v'). rewrite String.eqb_refl. reflexivity.
    + intros k v E. apply (H k (if String.eqb k' k then v' else v)). destruct (String.eqb k' k); auto.
Qed.
Lemma keys_ext (P : string -> bool) kw kw' : (forall k, kw_get kw k = kw_get kw' k) ->
  forallb (fun b => P (fst b)) kw = forallb (fun b => P (fst b)) kw'.
Proof.
  intro H. apply eq_true_iff_eq. rewrite !keys_forall. split; intros Q k v E; apply (Q k v); congruence.
Qed.
Lemma check_call_ext given named var kw kw' : (forall k, kw_get kw k = kw_get kw' k) ->
  check_call given named var kw = check_call given named var kw'.
Proof.
  intro H. unfold check_call. 
  rewrite (keys_ext (fun k => negb (mem k given)) kw kw' H), (keys_ext (fun k => mem k named) kw kw' H). reflexivity.
Qed.
Lemma dispatch_ext b pb m re kw kw' : (forall k, kw_get kw k = kw_get kw' k) ->
  dispatch_name b pb m re kw = dispatch_name b pb m re kw'.
Proof.
  intro H. unfold dispatch_name.
  rewrite !(fun g n v => check_call_ext g n v kw kw' H).
  unfold kw_default. rewrite !H. reflexivity.
Qed.

Lemma dispatch_options b pb s opts re kw merged :
  (forall k, kw_get merged k = match kw_get opts k with Some v => Some v | None => kw_get kw k end) ->
  inference_dispatch b pb (WithOptions s opts) re kw = inference_dispatch b pb (Name s) re merged.
Proof.
  intro H. simpl. apply dispatch_ext. intro k. unfold kw_update. rewrite kw_get_app, H. reflexivity.
Qed.

Definition method_kw (m : method) (kw : kwargs) : kwargs := match m with Name s => kw | WithOptions s o => kw_update kw o end.
Lemma dispatch_eq b pb m re kw : inference_dispatch b pb m re kw = dispatch_name b pb (method_name m) re (method_kw m kw).
Proof. destruct m; reflexivity. Qed.

Lemma dispatch_unknown b pb m re kw :
  ~ In (method_name m) ["qpbo"; "lp"; "ad3"; "ad3+"; "ogm"; "unary"; "max-product"] ->
  inference_dispatch b pb m re kw = Err ValueError.
Proof.
  intro H. rewrite dispatch_eq. unfold dispatch_name. set (s := method_name m) in *.
  repeat match goal with |- context [String.eqb s ?c] => destruct (String.eqb_spec s c) as [E|_]; [exfalso; apply H; rewrite E; simpl; tauto|] end.
  reflexivity.
Qed.

Ltac invb H := repeat (let a := fresh "a" in let E := fresh "E" in apply bind_ok in H; destruct H as [a [E H]]).
Lemma with_energy_ok re r x e : with_energy re r = Ok (x, e) -> (e = None <-> re = false).
Proof.
  intro H. unfold with_energy in H. apply bind_ok in H. destruct H as [a [_ H]]. injection H as <- <-.
  destruct re; split; congruence.
Qed.
Lemma labels_only_ok r x e : labels_only r = Ok (x, e) -> e = None /\ exists y, x = RLabels y.
Proof. intro H. unfold labels_only in H. apply bind_ok in H. destruct H as [a [_ H]]. injection H as <- <-. eauto. Qed.

Lemma dispatch_energy b pb m re kw r e : inference_dispatch b pb m re kw = Ok (r, e) ->
  (e <> None <-> re = true /\ In (method_name m) ["lp"; "ad3"; "ad3+"; "ogm"]).
Proof.
  rewrite dispatch_eq. unfold dispatch_name. set (s := method_name m). set (k := method_kw m kw). intro H.
  destruct (String.eqb_spec s "qpbo") as [->|_].
  { invb H. destruct a1 as [[U p] edges]. apply labels_only_ok in H. destruct H as [-> _]. simpl. intuition discriminate. }
  destruct (String.eqb_spec s "lp") as [->|_].
  { apply bind_ok in H. destruct H as [? [_ H]]. apply bind_ok in H. destruct H as [[[U p] edges] [_ H]].
    apply bind_ok in H. destruct H as [? [_ H]]. apply with_energy_ok in H. destruct re, e; simpl; intuition congruence. }
  destruct (String.eqb_spec s "ad3") as [->|_].
  { apply bind_ok in H. destruct H as [? [_ H]]. apply with_energy_ok in H. destruct re, e; simpl; intuition congruence. }
  destruct (String.eqb_spec s "ad3+") as [->|_].
  { apply bind_ok in H. destruct H as [? [_ H]]. apply with_energy_ok in H. destruct re, e; simpl; intuition congruence. }
  destruct (String.eqb_spec s "ogm") as [->|_].
  { apply bind_ok in H. destruct H as [? [_ H]]. apply bind_ok in H. destruct H as [? [_ H]].
    apply bind_ok in H. destruct H as [[[U p] edges] [_ H]].
    apply bind_ok in H. destruct H as [? [_ H]]. apply with_energy_ok in H. destruct re, e; simpl; intuition congruence. }
  destruct (String.eqb_spec s "unary") as [->|_].
  { apply bind_ok in H. destruct H as [? [_ H]]. apply bind_ok in H. destruct H as [[[U p] edges] [_ H]].
    apply labels_only_ok in H. destruct H as [-> _]. simpl. intuition discriminate. }
  destruct (String.eqb_spec s "max-product") as [->|_]; [|discriminate].
  apply bind_ok in H. destruct H as [? [_ H]]. apply bind_ok in H. destruct H as [[[U p] edges] [_ H]].
  do 3 (apply bind_ok in H; destruct H as [? [_ H]]).
  apply labels_only_ok in H. destruct H as [-> _]. simpl. intuition discriminate.
Qed.

Lemma dispatch_energy_ignored b pb m kw : In (method_name m) ["qpbo"; "unary"; "max-product"] ->
  inference_dispatch b pb m true kw = inference_dispatch b pb m false kw.
Proof.
  rewrite !dispatch_eq. intros [<-|[<-|[<-|[]]]]; reflexivity.
Qed.
Lemma dispatch_labels b pb m re kw r e : In (method_name m) ["qpbo"; "unary"; "max-product"; "ogm"] ->
  inference_dispatch b pb m re kw = Ok (r, e) -> exists y, r = RLabels y.
Proof.
  rewrite !dispatch_eq. set (k := method_kw m kw). intros [<-|[<-|[<-|[<-|[]]]]] H; unfold dispatch_name in H; simpl String.eqb in H; cbv beta iota in H.
  - apply bind_ok in H. destruct H as [? [_ H]]. apply bind_ok in H. destruct H as [? [_ H]].
    apply bind_ok in H. destruct H as [[[U p] edges] [_ H]]. eapply labels_only_ok in H. tauto.
  - apply bind_ok in H. destruct H as [? [_ H]]. apply bind_ok in H. destruct H as [[[U p] edges] [_ H]]. apply labels_only_ok in H. tauto.
  - apply bind_ok in H. destruct H as [? [_ H]]. apply bind_ok in H. destruct H as [[[U p] edges] [_ H]].
    do 3 (apply bind_ok in H; destruct H as [? [_ H]]). apply labels_only_ok in H. tauto.
  - apply bind_ok in H. destruct H as [? [_ H]]. apply bind_ok in H. destruct H as [? [_ H]].
    apply bind_ok in H. destruct H as [[[U p] edges] [_ H]]. apply bind_ok in H. destruct H as [? [_ H]].
    unfold with_energy in H. simpl in H. injection H as <- _. eauto.
Qed.

(** hard logic constraints *)
Lemma method_kw_cons m k v kw : exists l1 l2, method_kw m ((k, v) :: kw) = (l1 ++ (k, v) :: l2)%list /\ method_kw m kw = (l1 ++ l2)%list.
Proof.
  destruct m as [s|s o]; simpl; [exists [], kw; auto|]. exists o, kw. auto.
Qed.
Lemma kw_get_insert l1 l2 k v k' : k <> k' -> kw_get (l1 ++ (k, v) :: l2)%list k' = kw_get (l1 ++ l2)%list k'.
Proof.
  intro H. rewrite !kw_get_app. destruct (kw_get l1 k'); auto. simpl. destruct (String.eqb_spec k k'); congruence.
Qed.
Lemma check_call_insert given named l1 l2 k v : mem k given = false ->
  check_call given named true (l1 ++ (k, v) :: l2)%list = check_call given named true (l1 ++ l2)%list.
Proof.
  intro H. unfold check_call. rewrite !forallb_app. simpl. rewrite H. reflexivity.
Qed.
Lemma dispatch_constraints_ignored b pb m re kw c : In (method_name m) ["qpbo"; "lp"; "ogm"; "unary"] ->
  inference_dispatch b pb m re (("constraints", c) :: kw) = inference_dispatch b pb m re kw.
Proof.
  rewrite !dispatch_eq. destruct (method_kw_cons m "constraints" c kw) as [l1 [l2 [-> ->]]].
  intros [<-|[<-|[<-|[<-|[]]]]]; unfold dispatch_name; simpl String.eqb; cbv iota;
    rewrite check_call_insert by reflexivity; unfold kw_default; rewrite ?kw_get_insert by discriminate; reflexivity.
Qed.
Lemma check_call_extra given named l1 l2 k v : mem k given = false -> mem k named = false ->
  check_call given named false (l1 ++ (k, v) :: l2)%list = Err TypeError.
Proof.
  intros H1 H2. unfold check_call. destruct (forallb _ _); simpl; auto.
  rewrite forallb_app. simpl. rewrite H2. simpl. rewrite andb_false_r. reflexivity.
Qed.
Lemma dispatch_constraints_rejected b pb m re kw c : In (method_name m) ["ad3"; "max-product"] ->
  inference_dispatch b pb m re (("constraints", c) :: kw) = Err TypeError.
Proof.
  rewrite !dispatch_eq. destruct (method_kw_cons m "constraints" c kw) as [l1 [l2 [-> _]]].
  intros [<-|[<-|[]]]; unfold dispatch_name; simpl String.eqb; cbv iota; rewrite check_call_extra by reflexivity; reflexivity.
Qed.

(** get_installed *)
Lemma try_methods_ok b l : (forall m, In m l -> inference_dispatch b (trivial_problem m) (Name m) false [] = Err ImportError \/
     is_ok (inference_dispatch b (trivial_problem m) (Name m) false []) = true) ->
  try_methods b l = Ok (filter (fun m => is_ok (inference_dispatch b (trivial_problem m) (Name m) false [])) l).
Proof.
  induction l as [|m l IH]; intro H; auto. cbn [try_methods filter].
  specialize (IH ltac:(intros; apply H; simpl; auto)). specialize (H m (or_introl eq_refl)).
  destruct H as [H|H].
  - rewrite H. exact IH.
  - destruct (inference_dispatch b (trivial_problem m) (Name m) false []); [|discriminate H]. rewrite IH. reflexivity.
Qed.
Lemma missing_import b m : available b m = false ->
  inference_dispatch b (trivial_problem m) (Name m) false [] = Err ImportError.
Proof.
  unfold available. destruct (String.eqb_spec m "qpbo") as [->|N1].
  { destruct (b_qpbo b) eqn:E; [discriminate|]. intros _. unfold inference_dispatch, dispatch_name, check_call. simpl. rewrite E. reflexivity. }
  destruct (String.eqb_spec m "ogm") as [->|N2].
  { destruct (b_ogm b) eqn:E; [discriminate|]. intros _. unfold inference_dispatch, dispatch_name, check_call. simpl. rewrite E. reflexivity. }
  destruct (String.eqb_spec m "ad3") as [->|N3].
  { simpl. destruct (b_ad3 b) eqn:E; [discriminate|]. intros _. unfold inference_dispatch, dispatch_name, check_call, inference_ad3. simpl. rewrite E. reflexivity. }
  destruct (String.eqb_spec m "ad3+") as [->|N4].
  { simpl. destruct (b_ad3 b) eqn:E; [discriminate|]. intros _. unfold inference_dispatch, dispatch_name, check_call, inference_ad3plus. simpl. rewrite E. reflexivity. }
  simpl. discriminate.
Qed.
Lemma filter_ext_in' {A} (f g : A -> bool) l : (forall a, In a l -> f a = g a) -> filter f l = filter g l.
Proof.
  induction l as [|a l IH]; simpl; intro H; auto. rewrite (H a) by auto. rewrite IH by auto. reflexivity.
Qed.
Lemma get_installed_ok b l :
  (forall m, In m l -> available b m = true -> is_ok (inference_dispatch b (trivial_problem m) (Name m) false []) = true) ->
  get_installed b (Some l) = Ok (filter (available b) l).
Proof.
  intro H. unfold get_installed. rewrite try_methods_ok.
  - f_equal. apply filter_ext_in'. intros m Hm. destruct (available b m) eqn:E; [apply H; auto|].
    rewrite missing_import by exact E. reflexivity.
  - intros m Hm. destruct (available b m) eqn:E; [right; apply H; auto|left; apply missing_import, E].
Qed.
Lemma get_installed_default b : get_installed b None = get_installed b (Some default_methods).
Proof. reflexivity. Qed.
Lemma max_product_trivial b : is_ok (inference_dispatch b (trivial_problem "max-product") (Name "max-product") false []) = true.
Proof. vm_compute. reflexivity. Qed.

(** ** AD3 *)
Lemma multi_answer_ok ums pms energy st relaxed exc :
  (forall m, In m ums -> (0 < mrows m)%nat -> (0 < mcols m)%nat) -> ums <> [] ->
  match multi_answer (ums, pms, energy, st) relaxed exc with
  | Ok (RMarginalsList ums' pms', e) => (st = Fractional \/ st = Unsolved) /\ relaxed = true /\ ums' = ums /\ pms' = pms /\ e = - energy
  | Ok (RLabels y, e) =>
      e = - energy /\ (st = Integral \/ st = Infeasible \/ (relaxed = false /\ exc = false)) /\
      length y = list_sum (map mrows ums) /\
      forall j i, (j < length ums)%nat -> (i < mrows (nth j ums (Mat 0 0 [])))%nat ->
        exists s, (s < mcols (nth j ums (Mat 0 0 [])))%nat /\
          nth (before mrows ums j + i) y O = (before mcols ums j + s)%nat /\
          (forall t, (t < mcols (nth j ums (Mat 0 0 [])))%nat -> mget (nth j ums (Mat 0 0 [])) i t <= mget (nth j ums (Mat 0 0 [])) i s)
  | Ok (RMarginals _ _, _) => False
  | Err ex => ex = InferenceException /\ (st = Fractional \/ st = Unsolved) /\ relaxed = false /\ exc = true
  end.
Proof.
  intros H Hne. unfold multi_answer.
  destruct (not_integral st) eqn:NI; destruct relaxed; cbn [andb].
  - destruct st; try discriminate NI; auto 6.
  - destruct exc; cbn [negb ensure bind andb].
    + destruct st; try discriminate NI; auto 8.
    + destruct (decode_from_ok ums H 0) as [y E].
      replace (decode_types ums) with (Ok y) by (destruct ums; [congruence|symmetry; exact E]).
      cbn [bind]. destruct (decode_from_spec ums 0 y E) as [L S]. split; [reflexivity|]. split; [auto|]. split; [exact L|].
      intros j i Hj Hi. destruct (S j i Hj Hi) as [s [A [B [C _]]]]. eauto.
  - rewrite andb_false_r. cbn [negb ensure bind].
    destruct (decode_from_ok ums H 0) as [y E].
    replace (decode_types ums) with (Ok y) by (destruct ums; [congruence|symmetry; exact E]).
    cbn [bind]. destruct (decode_from_spec ums 0 y E) as [L S]. split; [reflexivity|].
    split; [destruct st; try discriminate NI; auto|]. split; [exact L|].
    intros j i Hj Hi. destruct (S j i Hj Hi) as [s [A [B [C _]]]]. eauto.
  - rewrite andb_false_r. cbn [negb ensure bind].
    destruct (decode_from_ok ums H 0) as [y E].
    replace (decode_types ums) with (Ok y) by (destruct ums; [congruence|symmetry; exact E]).
    cbn [bind]. destruct (decode_from_spec ums 0 y E) as [L S]. split; [reflexivity|].
    split; [destruct st; try discriminate NI; auto|]. split; [exact L|].
    intros j i Hj Hi. destruct (S j i Hj Hi) as [s [A [B [C _]]]]. eauto.
Qed.

Lemma ad3_multi b lib Us ps edges relaxed bnb exc ums pms energy st :
  b_ad3 b = Some lib -> ad3_graphs lib Us edges ps bnb = Ok (ums, pms, energy, st) ->
  inference_ad3 b (Multi Us ps edges) relaxed bnb exc = multi_answer (ums, pms, energy, st) relaxed exc.
Proof. intros H E. unfold inference_ad3. rewrite H. cbn [imported bind]. rewrite E. reflexivity. Qed.
Lemma ad3plus_multi b lib Us ps edges relaxed bnb cons exc ums pms energy st :
  b_ad3 b = Some lib -> ad3_constraineds lib Us edges ps cons bnb = Ok (ums, pms, energy, st) ->
  inference_ad3plus b (Multi Us ps edges) relaxed bnb cons exc = multi_answer (ums, pms, energy, st) relaxed exc.
Proof. intros H E. unfold inference_ad3plus. rewrite H. cbn [imported bind]. rewrite E. reflexivity. Qed.

Lemma multi_decoding b lib Us ps edges relaxed bnb cons exc (plus : bool) ums pms energy st :
  b_ad3 b = Some lib ->
  (if plus then ad3_constraineds lib Us edges ps cons bnb else ad3_graphs lib Us edges ps bnb) = Ok (ums, pms, energy, st) ->
  (forall m, In m ums -> (0 < mrows m)%nat -> (0 < mcols m)%nat) -> ums <> [] ->
  match (if plus then inference_ad3plus b (Multi Us ps edges) relaxed bnb cons exc
         else inference_ad3 b (Multi Us ps edges) relaxed bnb exc) with
  | Ok (RMarginalsList ums' pms', e) => (st = Fractional \/ st = Unsolved) /\ relaxed = true /\ ums' = ums /\ pms' = pms /\ e = - energy
  | Ok (RLabels y, e) =>
      e = - energy /\ (st = Integral \/ st = Infeasible \/ (relaxed = false /\ exc = false)) /\
      length y = list_sum (map mrows ums) /\
      forall j i, (j < length ums)%nat -> (i < mrows (nth j ums (Mat 0 0 [])))%nat ->
        exists s, (s < mcols (nth j ums (Mat 0 0 [])))%nat /\
          nth (before mrows ums j + i) y O = (before mcols ums j + s)%nat /\
          (forall t, (t < mcols (nth j ums (Mat 0 0 [])))%nat -> mget (nth j ums (Mat 0 0 [])) i t <= mget (nth j ums (Mat 0 0 [])) i s)
  | Ok (RMarginals _ _, _) => False
  | Err ex => ex = InferenceException /\ (st = Fractional \/ st = Unsolved) /\ relaxed = false /\ exc = true
  end.
Proof.
  intros Hb E H Hne. destruct plus.
  - rewrite (ad3plus_multi _ lib _ _ _ _ _ _ _ ums pms energy st Hb E). apply multi_answer_ok; assumption.
  - rewrite (ad3_multi _ lib _ _ _ _ _ _ ums pms energy st Hb E). apply multi_answer_ok; assumption.
Qed.

(** one node type *)
From Verif Require Import Proofs.MaxProdProofs Proofs.LPProofs Proofs.LPProofs2.
Lemma ad3_single b lib U p edges relaxed bnb exc n k um pm energy st :
  b_ad3 b = Some lib -> mrows U = n -> mcols U = k -> (0 < k)%nat -> pw_shape p (length edges) k ->
  (forall pws, ad3_graph lib U edges pws bnb = Ok (um, pm, energy, st)) ->
  mat_ok um -> mrows um = n -> mcols um = k ->
  match inference_ad3 b (Single U p edges) relaxed bnb exc with
  | Ok (RMarginals um' pm', e) => (st = Fractional \/ st = Unsolved) /\ relaxed = true /\ um' = um /\ pm' = pm /\ e = - energy
  | Ok (RLabels y, e) =>
      e = - energy /\ (st = Integral \/ st = Infeasible \/ relaxed = false) /\
      labelling n k y /\ forall i s, (i < n)%nat -> (s < k)%nat -> mget um i s <= mget um i (lab y i)
  | _ => False
  end.
Proof.
  intros Hb Hr Hc Hk Hp HA Ho Hur Huc. unfold inference_ad3. rewrite Hb. cbn [imported bind].
  destruct (validate_ok U p edges k Hc) as [pws [E _]]; [destruct p; exact Hp|]. rewrite E. cbn [bind snd].
  rewrite HA. cbn [bind]. unfold single_answer. rewrite Hr, Hc.
  destruct (argmax_rows_ok um n k Hur Huc Hk) as [y [Ey [Hy Hm]]].
  destruct (not_integral st && relaxed) eqn:C.
  - apply andb_true_iff in C. destruct C as [C1 ->].
    assert (HR : reshape (ravel um) n k = Ok um).
    { destruct Ho as [O1 O2]. rewrite Huc in O2.
      assert (LR : length (ravel um) = (n * k)%nat) by (unfold ravel; rewrite (concat_length_rows k) by exact O2; congruence).
      rewrite reshape_ok by exact LR. f_equal. apply mat_eq_ext; [apply mtab_ok|split; [exact O1|rewrite Huc; exact O2]|simpl; congruence|simpl; congruence|].
      simpl. intros i j Hi Hj. rewrite mget_mtab by assumption. unfold ravel.
      assert (O1' : length (mdat um) = n) by congruence.
      rewrite get1_concat by (auto; lia). reflexivity. }
    rewrite HR. cbn [bind]. split; [destruct st; try discriminate C1; auto|]. auto.
  - rewrite Ey. cbn [bind]. split; [reflexivity|]. split; [|split; assumption].
    destruct st, relaxed; try discriminate C; auto.
Qed.
Lemma ad3plus_single b lib U p edges relaxed bnb cons exc n k um pm energy st :
  b_ad3 b = Some lib -> (0 < k)%nat ->
  ad3_constrained lib U edges p cons bnb = Ok (um, pm, energy, st) -> mrows um = n -> mcols um = k ->
  match inference_ad3plus b (Single U p edges) relaxed bnb cons exc with
  | Ok (RMarginals um' pm', e) => (st = Fractional \/ st = Unsolved) /\ relaxed = true /\ um' = um /\ pm' = pm /\ e = - energy
  | Ok (RLabels y, e) =>
      e = - energy /\ (st = Integral \/ st = Infeasible \/ (relaxed = false /\ exc = false)) /\
      labelling n k y /\ forall i s, (i < n)%nat -> (s < k)%nat -> mget um i s <= mget um i (lab y i)
  | Ok (RMarginalsList _ _, _) => False
  | Err ex => ex = InferenceException /\ (st = Fractional \/ st = Unsolved) /\ relaxed = false /\ exc = true
  end.
Proof.
  intros Hb Hk E Hur Huc. unfold inference_ad3plus. rewrite Hb. cbn [imported bind]. rewrite E. cbn [bind snd].
  destruct (argmax_rows_ok um n k Hur Huc Hk) as [y [Ey [Hy Hm]]].
  destruct exc, (not_integral st) eqn:NI, relaxed; cbn [andb negb ensure bind]; unfold single_answer; rewrite ?NI; cbn [andb];
    rewrite ?Ey; cbn [bind]; destruct st; try discriminate NI; auto 8.
Qed.
