From Coq Require Import ZArith Permutation.
From Verif Require Import Model.Initialize Model.Loss Model.Unstructured Model.GraphCRF Model.EdgeFeature Model.Grid Model.MultiLabel Model.LatentGraph Model.LatentNode Proofs.UnstructuredProofs2 Proofs.UnstructuredProofs Spec.LossSpec Proofs.LossProofs Proofs.ScoreProofs.

(** ** what initialize leaves *)
Section Init.
  Variables (sz : option nat -> option nat -> option nat * option exn).

  Lemma initialize_ok nf nt d a : sz (Some nt) (Some nf) = (Some d, None) ->
    (a_features a = None \/ a_features a = Some nf) -> (a_things a = None \/ a_things a = Some nt) ->
    (forall c, a_cw a = Some c -> length c = nt) ->
    initialize sz (Ok nf) (Ok nt) a =
    (Attrs (Some nt) (Some nf) (Some d) (Some (match a_cw a with Some c => c | None => repeat 1 nt end))
       (Some (match a_cw a with Some _ => false | None => true end)), None).
  Proof.
    intros S F T C. unfold initialize.
    assert (KF : (match a_features a with Some f => (f =? nf)%nat | None => true end) = true) by (destruct F as [->| ->]; [reflexivity|apply Nat.eqb_refl]).
    rewrite KF. unfold set_features at 1. cbn [a_things].
    assert (KT : (match a_things a with Some t => (t =? nt)%nat | None => true end) = true) by (destruct T as [->| ->]; [reflexivity|apply Nat.eqb_refl]).
    rewrite KT. unfold finish, set_size. cbn [set_things set_features a_things a_features a_size a_cw a_uniform]. rewrite S.
    unfold set_class_weight. cbn [a_size a_things a_features a_cw]. destruct (a_cw a) as [c|]; [|reflexivity].
    rewrite (C c eq_refl), Nat.eqb_refl. reflexivity.
  Qed.
  Lemma initialize_bad_features nf nt f a : a_features a = Some f -> f <> nf -> initialize sz (Ok nf) nt a = (a, Some ValueError).
  Proof. intros F N. unfold initialize. rewrite F. apply Nat.eqb_neq in N. rewrite N. reflexivity. Qed.
  Lemma initialize_bad_things nf nt t a : (a_features a = None \/ a_features a = Some nf) -> a_things a = Some t -> t <> nt ->
    initialize sz (Ok nf) (Ok nt) a = (set_features nf a, Some ValueError).
  Proof.
    intros F T N. unfold initialize.
    assert (KF : (match a_features a with Some f => (f =? nf)%nat | None => true end) = true) by (destruct F as [->| ->]; [reflexivity|apply Nat.eqb_refl]).
    rewrite KF. unfold set_features at 1. cbn [a_things]. rewrite T. apply Nat.eqb_neq in N. rewrite N. reflexivity.
  Qed.
  Lemma initialize_bad_cw nf nt d a c : sz (Some nt) (Some nf) = (Some d, None) ->
    (a_features a = None \/ a_features a = Some nf) -> (a_things a = None \/ a_things a = Some nt) ->
    a_cw a = Some c -> length c <> nt ->
    initialize sz (Ok nf) (Ok nt) a = (Attrs (Some nt) (Some nf) (Some d) (Some c) (a_uniform a), Some ValueError).
  Proof.
    intros S F T C N. unfold initialize.
    assert (KF : (match a_features a with Some f => (f =? nf)%nat | None => true end) = true) by (destruct F as [->| ->]; [reflexivity|apply Nat.eqb_refl]).
    rewrite KF. unfold set_features at 1. cbn [a_things].
    assert (KT : (match a_things a with Some t => (t =? nt)%nat | None => true end) = true) by (destruct T as [->| ->]; [reflexivity|apply Nat.eqb_refl]).
    rewrite KT. unfold finish, set_size. cbn [set_things set_features a_things a_features a_size a_cw a_uniform]. rewrite S.
    unfold set_class_weight. cbn [a_size a_things a_features a_cw]. rewrite C. apply Nat.eqb_neq in N. rewrite N. reflexivity.
  Qed.
  Lemma initialize_iff nf nt d a : sz (Some nt) (Some nf) = (Some d, None) ->
    (snd (initialize sz (Ok nf) (Ok nt) a) = None <->
     (a_features a = None \/ a_features a = Some nf) /\ (a_things a = None \/ a_things a = Some nt) /\
     (forall c, a_cw a = Some c -> length c = nt)).
  Proof.
    intro S. split.
    - intro H.
      assert (F : a_features a = None \/ a_features a = Some nf).
      { destruct (a_features a) as [f|] eqn:E; [|left; reflexivity]. right. destruct (Nat.eq_dec f nf) as [->|N]; [reflexivity|].
        rewrite (initialize_bad_features nf (Ok nt) f a E N) in H. discriminate H. }
      assert (T : a_things a = None \/ a_things a = Some nt).
      { destruct (a_things a) as [t|] eqn:E; [|left; reflexivity]. right. destruct (Nat.eq_dec t nt) as [->|N]; [reflexivity|].
        rewrite (initialize_bad_things nf nt t a F E N) in H. discriminate H. }
      split; [exact F|]. split; [exact T|]. intros c C. destruct (Nat.eq_dec (length c) nt) as [E|N]; [exact E|].
      rewrite (initialize_bad_cw nf nt d a c S F T C N) in H. discriminate H.
    - intros [F [T C]]. rewrite (initialize_ok nf nt d a S F T C). reflexivity.
  Qed.
  Lemma initialize_result nf nt a a' : initialize sz (Ok nf) (Ok nt) a = (a', None) -> a_things a' = Some nt /\ a_features a' = Some nf.
  Proof.
    unfold initialize. intro H. destruct (match a_features a with Some f => (f =? nf)%nat | None => true end); [|discriminate H].
    destruct (match a_things (set_features nf a) with Some t => (t =? nt)%nat | None => true end); [|discriminate H].
    unfold finish, set_size in H. destruct (sz (a_things (set_things nt (set_features nf a))) (a_features (set_things nt (set_features nf a)))) as [d e].
    destruct e as [e|]; [discriminate H|]. unfold set_class_weight in H. cbn [set_things set_features a_things a_features a_size a_cw a_uniform] in H.
    destruct (match d with Some _ => d | None => a_size a end); [|injection H as <-; split; reflexivity].
    destruct (a_cw a) as [c|]; [destruct (length c =? nt)%nat; [|discriminate H]|]; injection H as <-; split; reflexivity.
  Qed.
End Init.

(** ** numbers of labels *)
Lemma nodup_len_incl (l m : list Z) : NoDup l -> (forall x, In x l -> In x m) -> (length l <= length m)%nat.
Proof. intros N I. apply NoDup_incl_length; [exact N|exact I]. Qed.
Lemma range_spec k x : In x (map Z.of_nat (seq 0 k)) <-> (0 <= x < Z.of_nat k)%Z.
Proof.
  split.
  - intro H. apply in_map_iff in H. destruct H as [i [<- Hi]]. apply in_seq in Hi. lia.
  - intro H. apply in_map_iff. exists (Z.to_nat x). split; [lia|]. apply in_seq. lia.
Qed.
Lemma range_nodup k : NoDup (map Z.of_nat (seq 0 k)).
Proof. apply FinFun.Injective_map_NoDup; [intros a b H; lia|apply seq_NoDup]. Qed.
Lemma labels_valid_iff (ls : list Z) :
  let k := length (nodup Z.eq_dec ls) in
  (forall x, In x ls -> (0 <= x < Z.of_nat k)%Z) <-> (forall x, In x ls <-> (0 <= x < Z.of_nat k)%Z).
Proof.
  intro k. split; [|intros H x; apply H]. intros H x. split; [apply H|]. intro Hx.
  assert (I : forall y, In y (nodup Z.eq_dec ls) -> In y (map Z.of_nat (seq 0 k))) by (intros y Hy; apply range_spec, H, (nodup_In Z.eq_dec); exact Hy).
  assert (Q : incl (map Z.of_nat (seq 0 k)) (nodup Z.eq_dec ls)).
  { apply NoDup_length_incl; [apply NoDup_nodup|rewrite map_length, seq_length; unfold k; lia|exact I]. }
  apply (nodup_In Z.eq_dec). apply Q. apply range_spec. exact Hx.
Qed.
(** the count is the size of the set of labels *)
Lemma n_unique_spec Ys k : n_unique Ys = Ok k <-> Ys <> [] /\ exists d, NoDup d /\ length d = k /\ forall x, In x d <-> In x (concat Ys).
Proof.
  unfold n_unique. destruct Ys as [|y Ys].
  - split; [discriminate|]. intros [N _]. contradiction.
  - split.
    + intro H. injection H as <-. split; [discriminate|]. exists (nodup Z.eq_dec (concat (y :: Ys))). split; [apply NoDup_nodup|]. split; [reflexivity|]. intro x. apply nodup_In.
    + intros [_ [d [N [L I]]]]. f_equal. rewrite <- L. apply Nat.le_antisymm.
      * apply nodup_len_incl; [apply NoDup_nodup|]. intros x Hx. apply I. apply (nodup_In Z.eq_dec). exact Hx.
      * apply nodup_len_incl; [exact N|]. intros x Hx. apply nodup_In. apply I. exact Hx.
Qed.

(** ** a gap in the labels *)
Lemma cw_after sz nf nt a a' : (exists d, sz (Some nt) (Some nf) = (Some d, None)) -> initialize sz (Ok nf) (Ok nt) a = (a', None) ->
  exists c, a_cw a' = Some c /\ length c = nt.
Proof.
  intros [d S] H. assert (K := proj1 (initialize_iff sz nf nt d a S)). rewrite H in K. destruct (K eq_refl) as [F [T C]].
  rewrite (initialize_ok sz nf nt d a S F T C) in H. injection H as <-. cbn [a_cw]. eexists. split; [reflexivity|].
  destruct (a_cw a) as [c|] eqn:E; [apply C; reflexivity|apply repeat_length].
Qed.
Lemma graph_sizes directed nt nf : exists d, graph_sizer directed (Some nt) (Some nf) = (Some d, None).
Proof. eexists. reflexivity. Qed.
Lemma gap_breaks_loss directed Xs (Ys : list (list nat)) a a' y y' l k :
  n_unique (map (map Z.of_nat) Ys) = Ok k ->
  graph_initialize directed Xs (map (map Z.of_nat) Ys) a = (a', None) -> In y Ys -> In l y -> (k <= l)%nat ->
  a_things a' = Some k /\ exists c, a_cw a' = Some c /\ loss (Some c) y y' = Err IndexError /\ max_loss (Some c) y = Err IndexError.
Proof.
  intros U H Iy Il Hl. unfold graph_initialize in H. rewrite U in H. destruct (first_cols Xs) as [nf|e]; [|discriminate H].
  split; [exact (proj1 (initialize_result _ _ _ _ _ H))|]. destruct (cw_after _ nf k a a' (graph_sizes directed k nf) H) as [c [C L]]. exists c. split; [exact C|].
  apply loss_uncovered. intro Q. cbn [covers] in Q. rewrite Forall_forall in Q. specialize (Q l Il). lia.
Qed.

Lemma initialize_again sz nf nt d a a' : sz (Some nt) (Some nf) = (Some d, None) -> initialize sz (Ok nf) (Ok nt) a = (a', None) ->
  initialize sz (Ok nf) (Ok nt) a' = (Attrs (a_things a') (a_features a') (a_size a') (a_cw a') (Some false), None).
Proof.
  intros S H. assert (K := proj1 (initialize_iff sz nf nt d a S)). rewrite H in K. destruct (K eq_refl) as [F [T C]].
  destruct (cw_after sz nf nt a a' (ex_intro _ d S) H) as [c [Ec L]].
  rewrite (initialize_ok sz nf nt d a S F T C) in H.
  assert (A : a' = Attrs (Some nt) (Some nf) (Some d) (Some c) (a_uniform a')) by (injection H as <-; cbn in *; rewrite Ec; reflexivity).
  rewrite A. rewrite (initialize_ok sz nf nt d _ S); [reflexivity|right; reflexivity|right; reflexivity|]. intros c' C'. cbn in C'. injection C' as <-. exact L.
Qed.
Lemma initialize_other sz nf nt nf' nt' d d' a a' : sz (Some nt) (Some nf) = (Some d, None) -> sz (Some nt') (Some nf') = (Some d', None) ->
  initialize sz (Ok nf) (Ok nt) a = (a', None) ->
  (snd (initialize sz (Ok nf') (Ok nt') a') = None <-> nf' = nf /\ nt' = nt).
Proof.
  intros S S' H. rewrite (initialize_iff sz nf' nt' d' a' S'). destruct (initialize_result sz nf nt a a' H) as [T F]. rewrite T, F.
  destruct (cw_after sz nf nt a a' (ex_intro _ d S) H) as [c [Ec L]]. split.
  - intros [[Q|Q] [[R|R] _]]; try discriminate. injection Q as ->. injection R as ->. split; reflexivity.
  - intros [-> ->]. split; [right; reflexivity|]. split; [right; reflexivity|]. intros c' C'. rewrite Ec in C'. injection C' as <-. exact L.
Qed.
Lemma nth_repeat_lt {A} (v d : A) n i : (i < n)%nat -> nth i (repeat v n) d = v.
Proof. revert i; induction n as [|n IH]; intros [|i] H; simpl; try lia; auto. apply IH. lia. Qed.
Lemma uniform_harmless S F r X Y w : mat_ok X -> mcols X = F -> length w = (S * F)%nat -> length Y = mrows X ->
  Forall (fun y => (y < S)%nat) Y -> (0 < S)%nat ->
  mc_batch_laug (MC S F (repeat 1 S) true r) X Y w = mc_batch_laug (MC S F (repeat 1 S) false r) X Y w.
Proof.
  intros HX HF HW HY HS H0.
  rewrite (mc_batch_laug_agrees (MC S F (repeat 1 S) true r)); try assumption; [|apply repeat_length|intros _ s Hs; unfold get1; apply nth_repeat_lt; exact Hs].
  rewrite (mc_batch_laug_agrees (MC S F (repeat 1 S) false r)); try assumption; [reflexivity|apply repeat_length|discriminate].
Qed.
Lemma existsb_false_all {A} (f : A -> bool) l : existsb f l = false <-> forall x, In x l -> f x = false.
Proof.
  induction l as [|a l IH]; simpl; [split; [intros _ x []|reflexivity]|]. rewrite orb_false_iff, IH. split.
  - intros [H1 H2] x [<-|Hx]; auto.
  - intro H. split; [apply H; left; reflexivity|intros x Hx; apply H; right; exact Hx].
Qed.
Lemma ef_sizer_checks ke sym anti t nf : snd (ef_sizer (Some ke) sym anti t nf) = None <->
  (forall i, In i (sym ++ anti) -> (i < ke)%nat) /\ (forall i, In i sym -> ~ In i anti).
Proof.
  unfold ef_sizer. destruct (existsb (fun i => (ke <=? i)%nat) (sym ++ anti)) eqn:E1.
  - cbn [snd]. split; [discriminate|]. intros [H _]. exfalso. apply existsb_exists in E1. destruct E1 as [i [I L]]. apply Nat.leb_le in L. specialize (H i I). lia.
  - assert (A : forall i, In i (sym ++ anti) -> (i < ke)%nat) by (intros i I; apply (proj1 (existsb_false_all _ _) E1 i) in I; apply Nat.leb_gt in I; exact I).
    destruct (existsb (fun i => existsb (Nat.eqb i) anti) sym) eqn:E2; cbn [snd].
    + split; [discriminate|]. intros [_ H]. exfalso. apply existsb_exists in E2. destruct E2 as [i [I J]]. apply existsb_exists in J. destruct J as [j [J Q]]. apply Nat.eqb_eq in Q. subst j. exact (H i I J).
    + split; [|reflexivity]. intros _. split; [exact A|]. intros i I J. pose proof (proj1 (existsb_false_all _ _) E2 i I) as Q. cbv beta in Q.
      pose proof (proj1 (existsb_false_all _ _) Q i J) as R. rewrite Nat.eqb_refl in R. discriminate R.
Qed.
Lemma ef_sizer_size ke sym anti t nf : fst (ef_sizer (Some ke) sym anti (Some t) (Some nf)) = Some (ef_size (EFCRF t nf ke sym anti)).
Proof. unfold ef_sizer. destruct (existsb _ (sym ++ anti)); [reflexivity|]. destruct (existsb _ sym); reflexivity. Qed.
Lemma ef_initialize_spec sym anti ke x Xs Ys k ne :
  n_unique Ys = Ok k -> (ne = None \/ ne = Some ke) ->
  let r := ef_initialize sym anti (Ok ke) (x :: Xs) Ys ne (Attrs None None None None None) in
  fst r = Some ke /\
  (snd (snd r) = None <-> (forall i, In i (sym ++ anti) -> (i < ke)%nat) /\ (forall i, In i sym -> ~ In i anti)) /\
  (snd (snd r) = None -> a_size (fst (snd r)) = Some (ef_size (EFCRF k (mcols x) ke sym anti))).
Proof.
  intros U N r. assert (R : r = (Some ke, initialize (ef_sizer (Some ke) sym anti) (Ok (mcols x)) (Ok k) (Attrs None None None None None))).
  { unfold r, ef_initialize. rewrite U. destruct N as [->| ->]; [reflexivity|]. rewrite Nat.eqb_refl. reflexivity. }
  rewrite R. cbn [fst snd]. split; [reflexivity|]. pose proof (ef_sizer_checks ke sym anti (Some k) (Some (mcols x))) as CH. pose proof (ef_sizer_size ke sym anti k (mcols x)) as SI.
  assert (V : initialize (ef_sizer (Some ke) sym anti) (Ok (mcols x)) (Ok k) (Attrs None None None None None) =
    match snd (ef_sizer (Some ke) sym anti (Some k) (Some (mcols x))) with
    | Some e => (Attrs (Some k) (Some (mcols x)) (Some (ef_size (EFCRF k (mcols x) ke sym anti))) None None, Some e)
    | None => (Attrs (Some k) (Some (mcols x)) (Some (ef_size (EFCRF k (mcols x) ke sym anti))) (Some (repeat 1 k)) (Some true), None)
    end).
  { unfold initialize. cbn [a_features a_things set_features set_things]. unfold finish, set_size. cbn [a_features a_things set_features set_things a_size a_cw a_uniform].
    destruct (ef_sizer (Some ke) sym anti (Some k) (Some (mcols x))) as [d e]. cbn [fst snd] in SI |- *. subst d. destruct e; reflexivity. }
  rewrite V. destruct (snd (ef_sizer (Some ke) sym anti (Some k) (Some (mcols x)))) as [e|]; cbn [fst snd a_size]; (split; [exact CH|]); [discriminate|reflexivity].
Qed.
Lemma forallb_neg {A} (f g : A -> bool) l : (forall x, f x = negb (g x)) -> forallb f l = negb (existsb g l).
Proof. intro H. induction l as [|a l IH]; [reflexivity|]. simpl. rewrite IH, H, negb_orb. reflexivity. Qed.
Lemma sizes_agree S F :
  (forall directed, graph_sizer directed (Some S) (Some F) = (Some (g_size (GraphCRF S F directed)), None)) /\
  (forall cw u r, mc_sizer (Some S) (Some F) = (Some (mc_size (MC S F cw u r)), None)) /\
  (forall ne sym anti, ef_check_declared (EFCRF S F ne sym anti) = Ok tt -> ef_sizer (Some ne) sym anti (Some S) (Some F) = (Some (ef_size (EFCRF S F ne sym anti)), None)) /\
  (forall ne sym anti e, ef_check_declared (EFCRF S F ne sym anti) = Err e -> snd (ef_sizer (Some ne) sym anti (Some S) (Some F)) = Some e) /\
  (forall edges, ml_sizer (length edges) (Some S) (Some F) = (Some (ml_size (ML S F edges)), None)) /\
  (forall hidden nodef cw, ln_sizer hidden nodef (Some S) (Some F) = (Some (ln_size (LNCRF S hidden F nodef cw)), None)) /\
  (forall hidden nodef cw ne sym anti, el_sizer hidden ne nodef (Some S) (Some F) = (Some (el_size (ELCRF (LNCRF S hidden F nodef cw) ne sym anti)), None)) /\
  (forall hood, dgrid_sizer (ef_edge_features (dir_efcrf (GridCRF S F hood))) (Some S) (Some F) = (Some (dir_size (GridCRF S F hood)), None)).
Proof.
  assert (E1 : forall ne l, forallb (fun i => (i <? ne)%nat) l = negb (existsb (fun i => (ne <=? i)%nat) l)) by (intros ne l; apply forallb_neg; intro i; rewrite <- Nat.ltb_antisym; reflexivity).
  assert (E2 : forall sym anti : list nat, forallb (fun i => negb (existsb (Nat.eqb i) anti)) sym = negb (existsb (fun i => existsb (Nat.eqb i) anti) sym)) by (intros sym anti; apply forallb_neg; reflexivity).
  split; [intro d; unfold graph_sizer, both, g_size; destruct d; reflexivity|]. split; [reflexivity|]. split; [|split; [|split; [reflexivity|split; [|split]]]].
  - intros ne sym anti H. unfold ef_check_declared in H. cbn [ef_edge_features ef_sym ef_anti] in H. rewrite E1, E2 in H. unfold ef_sizer.
    destruct (existsb (fun i => (ne <=? i)%nat) (sym ++ anti)); [discriminate H|]. destruct (existsb _ sym); [discriminate H|]. reflexivity.
  - intros ne sym anti e H. unfold ef_check_declared in H. cbn [ef_edge_features ef_sym ef_anti] in H. rewrite E1, E2 in H. unfold ef_sizer.
    destruct (existsb (fun i => (ne <=? i)%nat) (sym ++ anti)); [injection H as <-; reflexivity|]. destruct (existsb _ sym); [injection H as <-; reflexivity|discriminate H].
  - intros h nf cw. unfold ln_sizer, both, ln_size, ln_input_states, ln_states. cbn [ln_hidden ln_labels ln_features ln_node_features]. rewrite (Nat.add_comm h S). reflexivity.
  - intros h nf cw ne sym anti. unfold el_sizer, both, el_size, ln_input_states, ln_states. cbn [el_node el_edge_features ln_hidden ln_labels ln_features ln_node_features]. rewrite (Nat.add_comm h S). reflexivity.
  - intro hood. reflexivity.
Qed.
Lemma initialize_size sz nf nt d a a' : sz (Some nt) (Some nf) = (Some d, None) -> initialize sz (Ok nf) (Ok nt) a = (a', None) -> a_size a' = Some d.
Proof.
  intros S H. assert (H1 : snd (initialize sz (Ok nf) (Ok nt) a) = None) by (rewrite H; reflexivity).
  apply (initialize_iff sz nf nt d a S) in H1. destruct H1 as [F [T C]]. rewrite (initialize_ok sz nf nt d a S F T C) in H. injection H as <-. reflexivity.
Qed.
Lemma class_sizes a a' :
  (forall edges X L, ml_initialize (length edges) X L a = (a', None) -> a_size a' = Some (ml_size (ML L (mcols X) edges))) /\
  (forall X Y k cw u r, mc_initialize X Y a = (a', None) -> n_unique (map (fun y => [y]) Y) = Ok k -> a_size a' = Some (mc_size (MC k (mcols X) cw u r))) /\
  (forall sym anti ne ne' Xs x Ys E k, ef_initialize sym anti (Ok E) (x :: Xs) Ys ne a = (ne', (a', None)) -> n_unique Ys = Ok k ->
     ne' = Some E /\ a_size a' = Some (ef_size (EFCRF k (mcols x) E sym anti))).
Proof.
  split; [|split].
  - intros edges X L H. exact (initialize_size _ _ _ _ _ _ eq_refl H).
  - intros X Y k cw u r H N. unfold mc_initialize in H. rewrite N in H. exact (initialize_size _ _ _ _ _ _ eq_refl H).
  - intros sym anti ne ne' Xs x Ys E k H N. unfold ef_initialize in H. destruct (match ne with Some e => (e =? E)%nat | None => true end); [|discriminate H].
    rewrite N in H. assert (H1 : Some E = ne') by congruence. cbn [first_cols] in H.
    assert (H2 : initialize (ef_sizer (Some E) sym anti) (Ok (mcols x)) (Ok k) a = (a', None)) by congruence. split; [congruence|].
    destruct (sizes_agree k (mcols x)) as [_ [_ [S1 [S2 _]]]]. destruct (ef_check_declared (EFCRF k (mcols x) E sym anti)) as [[]|e] eqn:D.
    + exact (initialize_size _ _ _ _ _ _ (S1 E sym anti D) H2).
    + specialize (S2 E sym anti e D). exfalso. unfold initialize in H2.
      destruct (match a_features a with Some f => (f =? mcols x)%nat | None => true end); [|discriminate H2].
      set (b := set_features (mcols x) a) in *. destruct (match a_things b with Some t => (t =? k)%nat | None => true end); [|discriminate H2].
      unfold finish, set_size in H2. cbn [a_things a_features set_things b set_features] in H2.
      destruct (ef_sizer (Some E) sym anti (Some k) (Some (mcols x))) as [dd ee] eqn:EE. cbn [snd] in S2. rewrite S2 in H2. discriminate H2.
Qed.
