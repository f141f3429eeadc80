From Coq Require Import ZArith.
From Verif Require Import Model.NSlack Spec.NSlackSpec Spec.PruneSpec Proofs.Arrays Proofs.LossProofs.

Lemma lows_snoc limit h v : lows limit (h ++ [v]) = if Qcltb v limit then S (lows limit h) else lows limit h.
Proof.
  unfold lows. rewrite filter_app, app_length. cbn [filter]. destruct (Qcltb v limit); cbn [length]; lia.
Qed.
Lemma zip_counters {A} limit (e : tagged A) : forall a, length a = length e ->
  zipw (fun c v => if Qcltb v limit then S c else c) (counters limit e) a = counters limit (push e a).
Proof.
  unfold counters, push. induction e as [|p e IH]; intros [|v a] L; try discriminate; auto.
  cbn [map zipw fst snd]. rewrite lows_snoc, IH by (simpl in L; lia). reflexivity.
Qed.
Lemma push_elements {A} (e : tagged A) : forall a, length a = length e -> elements (push e a) = elements e.
Proof.
  unfold elements, push. induction e as [|p e IH]; intros [|v a] L; try discriminate; auto.
  cbn [map zipw fst snd]. rewrite IH by (simpl in L; lia). reflexivity.
Qed.
Lemma keep_survivors {A} limit win (e : tagged A) :
  let kept := keep_counts win (elements e) (counters limit e) in
  map fst kept = elements (survivors limit win e) /\ map snd kept = counters limit (survivors limit win e).
Proof.
  cbv zeta. unfold keep_counts, elements, counters, survivors. induction e as [|p e [IH1 IH2]]; auto.
  cbn [map combine filter snd]. destruct (lows limit (snd p) <=? win)%nat; cbn [map fst snd]; rewrite ?IH1, ?IH2; auto.
Qed.
Lemma counters_fresh {A} limit (new : list A) : counters limit (fresh new) = repeat O (length new).
Proof. unfold counters, fresh. rewrite map_map. induction new; simpl; auto. f_equal; auto. Qed.
Lemma elements_fresh {A} (new : list A) : elements (fresh new) = new.
Proof. unfold elements, fresh. rewrite map_map. apply map_id. Qed.

Lemma prune_sample_ok {A} limit win (e : tagged A) (new : list A) a :
  (length new <= 1)%nat -> length a = (length e + length new)%nat ->
  prune_sample limit win (elements e ++ new) (counters limit e) a =
    let s := survivors limit win (push (e ++ fresh new) a) in Ok (elements s, counters limit s).
Proof.
  intros HN HA. unfold prune_sample. cbv zeta.
  assert (LE : length (elements e ++ new) = (length e + length new)%nat) by (rewrite app_length; unfold elements; rewrite map_length; auto).
  assert (EC : (if (length (counters limit e) <? length (elements e ++ new))%nat then counters limit e ++ [O] else counters limit e)
               = counters limit (e ++ fresh new)).
  { rewrite LE. unfold counters. rewrite map_app, map_length. fold (counters limit (fresh new)). rewrite counters_fresh.
    destruct new as [|c [|c' r]]; simpl in *; try lia.
    - rewrite Nat.add_0_r, Nat.ltb_irrefl, app_nil_r. reflexivity.
    - destruct (Nat.ltb_spec (length e) (length e + 1)); [reflexivity|lia]. }
  rewrite EC.
  assert (L : length (e ++ fresh new) = (length e + length new)%nat) by (rewrite app_length; unfold fresh; rewrite map_length; auto).
  assert (LC : length (counters limit (e ++ fresh new)) = (length e + length new)%nat) by (unfold counters; rewrite map_length; auto).
  rewrite LC, LE, HA, !Nat.eqb_refl. cbn [andb ensure bind].
  rewrite zip_counters by lia.
  assert (EE : elements e ++ new = elements (push (e ++ fresh new) a)).
  { rewrite push_elements by lia. unfold elements. rewrite map_app. f_equal. symmetry. apply elements_fresh. }
  rewrite EE. destruct (keep_survivors limit win (push (e ++ fresh new) a)) as [K1 K2]. rewrite K1, K2. reflexivity.
Qed.
Lemma prune_sample_two {A} limit win (e : tagged A) (new : list A) a :
  (2 <= length new)%nat -> prune_sample limit win (elements e ++ new) (counters limit e) a = Err IndexError.
Proof.
  intro H. unfold prune_sample. rewrite app_length. unfold elements at 1, counters at 1 2. rewrite !map_length.
  destruct (Nat.ltb_spec (length e) (length e + length new)); [|lia].
  rewrite !app_length. unfold elements, counters. rewrite !map_length. cbn [length].
  destruct (Nat.eqb_spec (length e + 1) (length e + length new)); [lia|]. reflexivity.
Qed.

(** all samples *)
Definition tags_of {A} (q : tagged A * list A) : tagged A := fst q ++ fresh (snd q).
Lemma prune_loop_ok {A} limit win (qs : list (tagged A * list A)) : forall a,
  Forall (fun q => (length (snd q) <= 1)%nat) qs ->
  length a = length (concat (map tags_of qs)) ->
  prune_loop limit win (map (fun q => elements (fst q) ++ snd q) qs) (map (fun q => counters limit (fst q)) qs) a =
    let ss := map (survivors limit win) (push_all (map tags_of qs) a) in
    Ok (map elements ss, map (counters limit) ss).
Proof.
  induction qs as [|[e new] qs IH]; intros a HF HA; [reflexivity|].
  inversion HF as [|? ? F1 F2]; subst. cbn [fst snd] in *. cbn [map concat push_all] in *. rewrite app_length in HA.
  assert (LT : length (tags_of (e, new)) = (length e + length new)%nat).
  { unfold tags_of. cbn [fst snd]. rewrite app_length. unfold fresh. rewrite map_length. reflexivity. }
  assert (LE : length (elements e ++ new) = length (tags_of (e, new))) by (rewrite app_length; unfold elements; rewrite map_length, LT; reflexivity).
  cbn [fst snd prune_loop].
  destruct (elements e ++ new) as [|c r] eqn:EL.
  - cbn [length] in LE. assert (length e = O /\ length new = O) as [Z1 Z2] by lia.
    apply length_zero_iff_nil in Z1. apply length_zero_iff_nil in Z2. subst e new. cbn [tl counters map].
    rewrite IH; auto.
  - assert (PS := prune_sample_ok limit win e new (firstn (length (c :: r)) a) F1).
    rewrite EL in PS. rewrite PS.
    + cbn [bind]. rewrite IH; auto.
      * cbn [bind fst snd]. rewrite LE. reflexivity.
      * rewrite skipn_length, LE. lia.
    + rewrite firstn_length, LE, <- LT. lia.
Qed.

(** what it means to be removed *)
Lemma removed_iff {A} limit win (p : A * list Qc) v : (lows limit (snd p) <= win)%nat ->
  (lows limit (snd p ++ [v]) <=? win)%nat = false <-> v < limit /\ lows limit (snd p) = win.
Proof.
  intro H. rewrite lows_snoc. destruct (Qcltb_spec v limit) as [L|L].
  - rewrite Nat.leb_gt. split; [intro; split; auto; lia|]. intros [_ E]. lia.
  - rewrite Nat.leb_gt. split; [lia|]. intros [K _]. exfalso. apply Qcle_not_lt in L. auto.
Qed.
Lemma survivors_in {A} limit win (e : tagged A) p : In p (survivors limit win e) -> (lows limit (snd p) <= win)%nat.
Proof. unfold survivors. intro H. apply filter_In in H. destruct H as [_ H]. apply Nat.leb_le in H. auto. Qed.

(** the counters of a fresh run are always aligned *)
Definition aligned {A} (cs : list (list A)) (active : list (list nat)) : Prop := Forall2 (fun s c => length s = length c) cs active.
Definition almost {A} (cs : list (list A)) (active : list (list nat)) : Prop :=
  Forall2 (fun s c => length s = length c \/ length s = S (length c)) cs active.
Lemma prune_loop_total {A} limit win (cs : list (list A)) : forall active a, almost cs active -> length a = length (concat cs) ->
  exists cs' active', prune_loop limit win cs active a = Ok (cs', active') /\ aligned cs' active'.
Proof.
  intros active a H. revert a. induction H as [|s c cs active HS H IH]; intros a L.
  - exists [], []. split; auto. constructor.
  - cbn [concat] in L. rewrite app_length in L. destruct s as [|x s].
    + destruct (IH a) as [cs' [ac' [E AL]]]. { simpl in L. lia. }
      exists ([] :: cs'), (c :: ac'). cbn [prune_loop tl]. rewrite E. cbn [bind fst snd]. split; auto. constructor; auto. destruct HS; [auto|]. discriminate.
    + cbn [prune_loop]. unfold prune_sample at 1. set (sx := x :: s) in *.
      set (cc := if (length c <? length sx)%nat then c ++ [O] else c).
      assert (LC : length cc = length sx).
      { unfold cc. destruct (Nat.ltb_spec (length c) (length sx)); rewrite ?app_length; cbn [length]; lia. }
      rewrite LC, firstn_length, Nat.min_l, Nat.eqb_refl by lia. cbn [andb ensure bind].
      destruct (IH (skipn (length sx) a)) as [cs' [ac' [E AL]]]. { rewrite skipn_length. lia. }
      rewrite E. cbn [bind fst snd]. eexists. eexists. split; [reflexivity|]. constructor; auto. rewrite !map_length. reflexivity.
Qed.
Lemma aligned_almost {A} (cs : list (list A)) active : aligned cs active -> almost cs active.
Proof. intro H. induction H; constructor; auto. Qed.
Lemma aligned_repeat {A} n : aligned (repeat (@nil A) n) (repeat [] n).
Proof. unfold aligned. induction n; simpl; constructor; auto. Qed.
