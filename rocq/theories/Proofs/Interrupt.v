(** Interruption of NSlackSSVM. *)
From Coq Require Import ZArith.
From Verif Require Import Model.Interrupt Spec.InterruptSpec Spec.PruneSpec Proofs.Arrays Proofs.LossProofs Proofs.LearnerProofs Proofs.QPProofs Proofs.QPProofs2
  Proofs.NSlackProofs Proofs.NSlackProofs2 Proofs.NSlackProofs3 Proofs.NSlackProofs4 Proofs.PruneProofs Proofs.NSlackProofs5 Proofs.OneSlackPrune.

Lemma grown_refl {A} idx (cs : list (list A)) : grown idx cs cs.
Proof. split; auto. Qed.
Lemma grown_cons {A} i idx (cs cs' : list (list A)) : grown idx cs cs' -> grown (i :: idx) cs cs'.
Proof. intros [L H]. split; auto. intros j s Hj. destruct (H j s Hj) as [K|[K1 K2]]; auto. right. split; auto. right. exact K1. Qed.

Lemma last_cons {A} (x : A) l d : last (x :: l) d = last l x.
Proof. revert x d. induction l as [|y l IH]; intros x d; auto. change (last (y :: l) d = last (y :: l) x). rewrite !IH. reflexivity. Qed.
Lemma last_map {A B C} (g : A -> B) (h : B -> C) l : forall d, last (map (fun x => h (g x)) l) (h d) = h (last (map g l) d).
Proof. induction l as [|a l IH]; intro d; auto. cbn [map]. rewrite !last_cons. apply IH. Qed.

(** ** appends *)
Lemma gather_points_none {Y} (yeq : Y -> Y -> bool) prm w cands : forall cs new sl cs' sl',
  gather yeq prm w cands cs new sl = Ok (cs', new, sl') -> gather_points yeq prm w cands cs = [].
Proof.
  induction cands as [|[i [[[yh dl] slack] loss]] cands IH]; intros cs new sl cs' sl' H; cbn [gather gather_points] in *; auto.
  destruct (negb (Qcltb 0 loss)); [eapply IH; eauto|]. apply bind_ok in H. destruct H as [old [E0 H]].
  destruct (nth_error cs i) as [o|]; [|discriminate]. injection E0 as ->.
  apply bind_ok in H. destruct H as [bad [EB H]]. rewrite EB. destruct bad; [eapply IH; eauto|].
  apply bind_ok in H. destruct H as [c1 [E1 H]]. exfalso.
  assert (G : forall cands cs n s cs' n' s', gather yeq prm w cands cs n s = Ok (cs', n', s') -> (n <= n')%nat).
  { clear. induction cands as [|[i [[[yh dl] slack] loss]] cands IH]; intros cs n s cs' n' s' H; cbn [gather] in H.
    - injection H as _ <- _. auto.
    - destruct (negb (Qcltb 0 loss)); [eapply IH; eauto|]. apply bind_ok in H. destruct H as [old [E0 H]].
      apply bind_ok in H. destruct H as [[] [_ H]]; [eapply IH; eauto|]. apply bind_ok in H. destruct H as [c1 [_ H]]. apply IH in H. lia. }
  apply G in H. lia.
Qed.
Lemma gather_points_last {Y} (yeq : Y -> Y -> bool) prm w cands : forall cs new sl cs' new' sl',
  gather yeq prm w cands cs new sl = Ok (cs', new', sl') -> last (gather_points yeq prm w cands cs) cs = cs'.
Proof.
  induction cands as [|[i [[[yh dl] slack] loss]] cands IH]; intros cs new sl cs' new' sl' H; cbn [gather gather_points] in *.
  - injection H as <- _ _. reflexivity.
  - destruct (negb (Qcltb 0 loss)); [eapply IH; eauto|]. apply bind_ok in H. destruct H as [old [E0 H]].
    destruct (nth_error cs i) as [o|]; [|discriminate]. injection E0 as ->.
    apply bind_ok in H. destruct H as [bad [EB H]]. rewrite EB. destruct bad; [eapply IH; eauto|].
    apply bind_ok in H. destruct H as [c1 [E1 H]]. rewrite E1, last_cons. eapply IH; eauto.
Qed.

(** ** deletions *)
Lemma deletions_keepi {A} f n : forall (c1 c2 : list A), length c1 = n ->
  (forall k s, In (k, s) (deletions (rev (filter f (seq 0 n))) (c1 ++ c2)) ->
     length s = (length (keepi f 0 c1 ++ c2) + k)%nat /\ incl s (c1 ++ c2)) /\
  last (map snd (deletions (rev (filter f (seq 0 n))) (c1 ++ c2))) (c1 ++ c2) = keepi f 0 c1 ++ c2 /\
  length (c1 ++ c2) = (length (keepi f 0 c1 ++ c2) + length (filter f (seq 0 n)))%nat.
Proof.
  induction n as [|n IH]; intros c1 c2 L1.
  - destruct c1; [|discriminate]. cbn [seq filter rev deletions map last keepi app]. split; [intros k s []|]. split; auto.
  - destruct (list_snoc _ _ L1) as [c [x [-> Lc]]].
    rewrite seq_S, filter_app, rev_app_distr, keepi_app. cbn [Nat.add filter]. rewrite Lc, <- !app_assoc. cbn [keepi app].
    destruct (f n); cbn [rev app deletions map].
    + assert (E1 := del_at_mid c x c2). rewrite Lc in E1. rewrite E1. destruct (IH c c2 Lc) as [A1 [A2 A3]].
      assert (IN : incl (c ++ c2) (c ++ x :: c2)).
      { intros z Hz. rewrite in_app_iff in *. destruct Hz as [Hz|Hz]; auto. right. right. exact Hz. }
      split; [|split].
      * intros k s [E|H].
        { injection E as <- <-. split; auto. rewrite rev_length. exact A3. }
        { destruct (A1 k s H) as [B1 B2]. split; auto. eapply incl_tran; eauto. }
      * rewrite last_cons. exact A2.
      * clear - A3. rewrite ?app_nil_r. repeat rewrite app_length in *. cbn [length] in *. lia.
    + destruct (IH c (x :: c2) Lc) as [A1 [A2 A3]]. rewrite app_nil_r. auto.
Qed.
Lemma keepi_filter {A} (w : nat) (s : list A) : forall k (pre c : list nat), length pre = k -> length s = length c ->
  keepi (fun j => (w <? nth j (pre ++ c) O)%nat) k s = map fst (filter (fun p => (snd p <=? w)%nat) (combine s c)).
Proof.
  induction s as [|x s IH]; intros k pre [|v c] Lk L; try discriminate; auto. cbn [keepi combine filter snd].
  rewrite app_nth2, Lk, Nat.sub_diag by lia. cbn [nth].
  assert (E := IH (S k) (pre ++ [v]) c ltac:(rewrite app_length; cbn; lia) ltac:(cbn in L; lia)). rewrite <- app_assoc in E. cbn [app] in E. rewrite E.
  destruct (Nat.leb_spec v w), (Nat.ltb_spec w v); try lia; reflexivity.
Qed.
Lemma keepi_filter0 {A} w (s : list A) c : length s = length c ->
  keepi (fun j => (w <? nth j c O)%nat) 0 s = map fst (filter (fun p => (snd p <=? w)%nat) (combine s c)).
Proof. intro L. exact (keepi_filter w s 0 [] c eq_refl L). Qed.
Lemma combine_filter_snd {A} w (s : list A) : forall c, length s = length c ->
  map snd (filter (fun p => (snd p <=? w)%nat) (combine s c)) = filter (fun v => (v <=? w)%nat) c.
Proof.
  induction s as [|x s IH]; intros [|v c] L; try discriminate; auto. cbn [combine filter snd]. cbn in L.
  destruct (v <=? w)%nat; cbn [map snd]; rewrite IH by lia; reflexivity.
Qed.

Lemma sample_points_shape {A} limit win (s : list A) c a : length s = length c \/ length s = S (length c) -> length a = length s ->
  (forall k s' c', In (k, (s', c')) (sample_points limit win s c a) -> length s' = (length c' + k)%nat /\ incl s' s) /\
  exists q, prune_sample limit win s c a = Ok q /\ last (map snd (sample_points limit win s c a)) (s, c) = q.
Proof.
  intros HL La. unfold sample_points, prune_sample.
  set (cc := if (length c <? length s)%nat then c ++ [O] else c).
  assert (LC : length cc = length s).
  { unfold cc. destruct (Nat.ltb_spec (length c) (length s)); rewrite ?app_length; cbn [length]; lia. }
  rewrite LC, La, Nat.eqb_refl. cbn [andb ensure bind].
  set (c2 := zipw (fun c v => if Qcltb v limit then S c else c) cc a).
  assert (L2 : length c2 = length s) by (unfold c2; rewrite zipw_length; lia). rewrite L2.
  set (f := fun j => (win <? nth j c2 O)%nat).
  destruct (deletions_keepi f (length s) s [] eq_refl) as [D1 [D2 D3]]. rewrite !app_nil_r in *.
  assert (K1 : keepi f 0 s = map fst (keep_counts win s c2)) by (apply keepi_filter0; auto).
  assert (K2 : filter (fun v => (v <=? win)%nat) c2 = map snd (keep_counts win s c2)) by (symmetry; apply combine_filter_snd; auto).
  assert (K3 : length (keepi f 0 s) = length (filter (fun v => (v <=? win)%nat) c2)) by (rewrite K1, K2, !map_length; reflexivity).
  split.
  - intros k s' c' [E|[E|[E|H]]].
    + injection E as <- <- <-. split; [lia|apply incl_refl].
    + injection E as <- <- <-. split; [lia|apply incl_refl].
    + injection E as <- <- <-. split; [rewrite rev_length; lia|apply incl_refl].
    + apply in_map_iff in H. destruct H as [[k0 s0] [E H]]. injection E as <- <- <-. destruct (D1 _ _ H) as [B1 B2]. split; auto. lia.
  - eexists. split; [reflexivity|]. cbn [map snd]. rewrite !last_cons, map_map. cbn [snd]. fold f.
    rewrite <- K1, <- K2, <- D2. exact (last_map snd (fun u => (u, filter (fun v => (v <=? win)%nat) c2)) _ s).
Qed.

(** ** all samples *)
(** one sample has [k] constraints too many *)
Definition pending {A} (k : nat) (cs : list (list A)) (active : list (list nat)) : Prop :=
  exists cs1 s cs2 ac1 c ac2, cs = cs1 ++ s :: cs2 /\ active = ac1 ++ c :: ac2 /\ counted cs1 ac1 /\
    length s = (length c + k)%nat /\ counted cs2 ac2.
Lemma pending_counted {A} k (cs : list (list A)) active : pending k cs active -> (k <= 1)%nat -> counted cs active.
Proof.
  intros [cs1 [s [cs2 [ac1 [c [ac2 [-> [-> [H1 [L H2]]]]]]]]]] Hk. apply Forall2_app; auto. constructor; auto. lia.
Qed.
Lemma pending_fails {A} limit win k (cs : list (list A)) active a : pending k cs active -> (2 <= k)%nat -> length a = length (concat cs) ->
  prune_loop limit win cs active a = Err IndexError.
Proof.
  intros [cs1 [s [cs2 [ac1 [c [ac2 [-> [-> [H1 [L H2]]]]]]]]]] Hk. revert a. induction H1 as [|s1 c1 cs1 ac1 HL H1 IH]; intros a La.
  - cbn [app prune_loop]. destruct s as [|x s]; [cbn in L; lia|]. unfold prune_sample.
    assert (E : (length c <? length (x :: s))%nat = true) by (apply Nat.ltb_lt; lia). rewrite E.
    assert (E2 : (length (c ++ [O]) =? length (x :: s))%nat = false) by (apply Nat.eqb_neq; rewrite app_length; cbn [length] in *; lia).
    rewrite E2. reflexivity.
  - cbn [app concat] in *. rewrite app_length in La. cbn [prune_loop]. destruct s1 as [|x s1].
    + cbn [tl]. rewrite IH by (cbn in La; lia). reflexivity.
    + destruct (sample_points_shape limit win (x :: s1) c1 (firstn (length (x :: s1)) a) HL) as [_ [q [Eq _]]].
      { rewrite firstn_length. lia. }
      rewrite Eq. cbn [bind]. rewrite IH; [reflexivity|]. rewrite skipn_length. lia.
Qed.
Lemma pending_ok {A} k (s : list A) c cs ac : length s = length c \/ length s = S (length c) -> pending k cs ac -> pending k (s :: cs) (c :: ac).
Proof.
  intros H [cs1 [t [cs2 [ac1 [e [ac2 [-> [-> [H1 [L H2]]]]]]]]]]. exists (s :: cs1), t, cs2, (c :: ac1), e, ac2. repeat (split; auto). constructor; auto.
Qed.
Lemma prune_sample_aligned {A} limit win (s : list A) c a q : prune_sample limit win s c a = Ok q -> length (fst q) = length (snd q).
Proof. unfold prune_sample. intro H. apply bind_ok in H. destruct H as [u [_ H]]. injection H as <-. cbn [fst snd]. rewrite !map_length. reflexivity. Qed.
Lemma prune_points_shape {A} limit win (cs : list (list A)) : forall active a, counted cs active -> length a = length (concat cs) ->
  (forall k cs' ac', In (k, (cs', ac')) (prune_points limit win cs active a) -> pending k cs' ac' /\ Forall2 (fun s s' => incl s' s) cs cs') /\
  exists q, prune_loop limit win cs active a = Ok q /\ last (map snd (prune_points limit win cs active a)) (cs, active) = q.
Proof.
  intros active a H. revert a. induction H as [|s c cs active HL H IH]; intros a La.
  - cbn [prune_points prune_loop]. split; [intros k cs' ac' []|]. eexists. split; reflexivity.
  - cbn [concat] in La. rewrite app_length in La.
    assert (RF : forall l : list (list A), Forall2 (fun s s' => incl s' s) l l).
    { induction l; constructor; auto. apply incl_refl. }
    destruct s as [|x s].
    + destruct (IH a) as [I1 [q [I2 I3]]]. { cbn in La. lia. }
      cbn [prune_points prune_loop tl firstn]. rewrite I2. cbn [bind]. split.
      * intros k cs' ac' Hin. apply in_map_iff in Hin. destruct Hin as [[k0 [u v]] [E Hin]]. cbn [fst snd app] in E. injection E as <- <- <-.
        destruct (I1 _ _ _ Hin) as [B1 B2]. split; [apply pending_ok; auto|]. constructor; auto. apply incl_refl.
      * eexists. split; [reflexivity|]. rewrite <- I3. rewrite !map_map. cbn [snd fst app].
        exact (last_map snd (fun p => ([] :: fst p, c :: snd p)) _ (cs, active)).
    + destruct (sample_points_shape limit win (x :: s) c (firstn (length (x :: s)) a) HL) as [S1 [p [S2 S3]]]. { rewrite firstn_length. lia. }
      destruct (IH (skipn (length (x :: s)) a)) as [I1 [q [I2 I3]]]. { rewrite skipn_length. lia. }
      cbn [prune_points prune_loop]. rewrite S2, I2. cbn [bind]. set (sx := x :: s) in *. clearbody sx. split.
      * intros k cs' ac' Hin. apply in_app_iff in Hin. destruct Hin as [Hin|Hin]; apply in_map_iff in Hin; destruct Hin as [[k0 [u v]] [E Hin]]; cbn [fst snd] in E; injection E as <- <- <-.
        { destruct (S1 _ _ _ Hin) as [B1 B2]. split; [|constructor; auto]. exists [], u, cs, [], v, active. repeat (split; auto). constructor. }
        { destruct (I1 _ _ _ Hin) as [B1 B2]. split; [apply pending_ok; auto; left; eapply prune_sample_aligned; eauto|]. constructor; auto.
          eapply prune_sample_incl; eauto. }
      * eexists. split; [reflexivity|]. rewrite map_app, !map_map. cbn [snd fst].
        set (l1 := map (fun x0 : nat * (list A * list nat) => (fst (snd x0) :: cs, snd (snd x0) :: active)) (sample_points limit win sx c (firstn (length sx) a))).
        assert (E1 : last l1 (sx :: cs, c :: active) = (fst p :: cs, snd p :: active)).
        { unfold l1. rewrite <- S3. exact (last_map snd (fun p => (fst p :: cs, snd p :: active)) _ (sx, c)). }
        assert (LA : forall (B : Type) (l l' : list B) d, last (l ++ l') d = last l' (last l d)).
        { clear. induction l as [|y l IHl]; intros l' d; auto. cbn [app]. rewrite !last_cons. apply IHl. }
        rewrite LA, E1. rewrite <- I3. exact (last_map snd (fun r => (fst p :: fst r, snd p :: snd r)) _ (cs, active)).
Qed.
