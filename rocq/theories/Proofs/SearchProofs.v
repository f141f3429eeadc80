From Verif Require Import Model.GraphFunctions Spec.GraphTheory Spec.Energy Proofs.Arrays.
From Coq Require Import Permutation.

(** ** adjacency lists *)
Lemma in_combine_seq {A} (l : list A) s i x :
  In (i, x) (combine (seq s (length l)) l) <-> (s <= i)%nat /\ nth_error l (i - s) = Some x.
Proof.
  revert s. induction l as [|a l IH]; intros s; simpl.
  - split; [intros []|]. intros [_ H]. destruct (i - s)%nat; discriminate.
  - rewrite IH. split.
    + intros [E|[H1 H2]].
      * injection E as -> ->. split; auto. rewrite Nat.sub_diag. reflexivity.
      * split; [lia|]. replace (i - s)%nat with (S (i - S s)) by lia. exact H2.
    + intros [H1 H2]. destruct (Nat.eq_dec s i) as [->|N].
      * left. rewrite Nat.sub_diag in H2. simpl in H2. congruence.
      * right. split; [lia|]. replace (i - s)%nat with (S (i - S s)) in H2 by lia. exact H2.
Qed.

Lemma adjacency_in edges u v e o : In (v, (e, o)) (adjacency edges u) <->
  nth_error edges e = Some (if o then (v, u) else (u, v)).
Proof.
  unfold adjacency. rewrite in_flat_map. split.
  - intros [[e' [a b]] [H1 H2]]. apply in_combine_seq in H1. destruct H1 as [_ H1]. rewrite Nat.sub_0_r in H1.
    apply in_app_or in H2. destruct H2 as [H2|H2].
    + destruct (Nat.eqb_spec a u); [destruct H2 as [H2|[]]|destruct H2]. injection H2 as <- <- <-. subst. exact H1.
    + destruct (Nat.eqb_spec b u); [destruct H2 as [H2|[]]|destruct H2]. injection H2 as <- <- <-. subst. exact H1.
  - intro H. exists (e, if o then (v, u) else (u, v)). split.
    + apply in_combine_seq. rewrite Nat.sub_0_r. split; [lia|exact H].
    + destruct o; apply in_or_app; [right|left]; rewrite Nat.eqb_refl; simpl; auto.
Qed.

Lemma adjacency_nodup edges u : NoDup (adjacency edges u).
Proof.
  unfold adjacency. generalize 0%nat. induction edges as [|[a b] edges IH]; intros s; simpl; [constructor|].
  set (rest := flat_map _ _).
  assert (Hr : forall v e o, In (v, (e, o)) rest -> (S s <= e)%nat).
  { intros v e o H. unfold rest in H. apply in_flat_map in H. destruct H as [[e' [a' b']] [H1 H2]].
    apply in_combine_seq in H1. apply in_app_or in H2.
    destruct H2 as [H2|H2]; [destruct (a' =? u)%nat|destruct (b' =? u)%nat]; try (destruct H2; fail);
      destruct H2 as [H2|[]]; injection H2 as <- <- <-; lia. }
  assert (IH' : NoDup rest) by apply IH.
  assert (forall v o, ~ In (v, (s, o)) rest) by (intros v o H; apply Hr in H; lia).
  destruct (a =? u)%nat, (b =? u)%nat; simpl; auto; repeat constructor; simpl; auto.
  - intros [E|E]; [discriminate|]. eapply H; eauto.
Qed.

Lemma adjacency_sym edges u v e o : In (v, (e, o)) (adjacency edges u) -> In (u, (e, negb o)) (adjacency edges v).
Proof. rewrite !adjacency_in. destruct o; auto. Qed.

Lemma adjacency_ends edges u v o x z o' e :
  In (v, (e, o)) (adjacency edges u) -> In (x, (e, o')) (adjacency edges z) ->
  (x = v /\ z = u /\ (o = o' \/ u = v)) \/ (x = u /\ z = v).
Proof.
  rewrite !adjacency_in. intros H1 H2. rewrite H1 in H2. destruct o, o'; injection H2 as E1 E2; subst; auto.
Qed.

Lemma adjacency_lt n edges u v q : graph_edges n edges -> In (v, q) (adjacency edges u) -> (u < n)%nat /\ (v < n)%nat.
Proof.
  intros Hg H. destruct q as [e o]. apply adjacency_in in H. apply nth_error_In in H.
  unfold graph_edges in Hg. rewrite Forall_forall in Hg. specialize (Hg _ H). destruct o; simpl in Hg; tauto.
Qed.

(** ** popping *)
Definition pop_ok (pop : list nat -> option (nat * list nat)) : Prop :=
  forall q, match pop q with
            | None => q = []
            | Some (x, r) => Permutation q (x :: r)
            end.
Lemma pop_first_ok : pop_ok pop_first.
Proof. intros [|x r]; simpl; auto. Qed.
Lemma pop_last_ok : pop_ok pop_last.
Proof.
  intros q. unfold pop_last. destruct (rev q) as [|x r] eqn:E.
  - rewrite <- (rev_involutive q), E. reflexivity.
  - rewrite <- (rev_involutive q), E. simpl. apply Permutation_sym, Permutation_cons_append.
Qed.

Lemma upd_eq {A} (f : nat -> A) i v : upd f i v i = v.
Proof. unfold upd. rewrite Nat.eqb_refl. reflexivity. Qed.
Lemma upd_neq {A} (f : nat -> A) i j v : j <> i -> upd f i v j = f j.
Proof. intro H. unfold upd. apply Nat.eqb_neq in H. rewrite H. reflexivity. Qed.

Section Search.
Variable n : nat.
Variable edges : list (nat * nat).
Hypothesis Hg : graph_edges n edges.
Let adj := adjacency edges.

(** connected by tree edges *)
Definition tconn (par : nat -> option (nat * (nat * bool))) : nat -> nat -> Prop :=
  clos_refl_sym_trans nat (fun a b => exists q, par b = Some (a, q)).

Lemma tconn_mono par par' a b : (forall v x, par v = Some x -> par' v = Some x) -> tconn par a b -> tconn par' a b.
Proof.
  intros H C. induction C.
  - apply rst_step. destruct H0 as [q E]. exists q. auto.
  - apply rst_refl.
  - apply rst_sym; auto.
  - eapply rst_trans; eauto.
Qed.

(** Invariant while [node]'s entries [done] have been handled; with [node = None] between
    two nodes.  [old]: vertices of finished components; [root]: root of the current one. *)
Record sinv (old : list nat) (root : nat) (cur : option (nat * list entry)) (st : search_state) : Prop := {
  i_nodup : NoDup (st_traversal st ++ st_queue st);
  i_visited : forall v, st_visited st v = true <-> In v (st_traversal st ++ st_queue st);
  i_lt : forall v, In v (st_traversal st ++ st_queue st) -> (v < n)%nat;
  i_parent : forall v u q, st_parent st v = Some (u, q) ->
     In u (st_traversal st) /\ st_visited st v = true /\ In (v, q) (adj u);
  i_order : forall l1 v l2 u q, st_traversal st = l1 ++ v :: l2 -> st_parent st v = Some (u, q) -> In u l2;
  i_entries : forall u v q, In u (st_traversal st) -> In (v, q) (adj u) ->
     match cur with Some (node, done) => u = node -> In (v, q) done | None => True end ->
     st_visited st v = true /\ (st_parent st v = Some (u, q) \/ exists q', st_parent st u = Some (v, q'));
  i_cur : match cur with
          | Some (node, done) =>
              (exists tr, st_traversal st = node :: tr) /\ ~ In node old /\
              forall v q, st_parent st v = Some (node, q) -> In (v, q) done
          | None => True end;
  i_old : forall u, In u old -> st_visited st u = true /\ forall v q, In (v, q) (adj u) -> In v old;
  i_conn : forall v, In v (st_traversal st ++ st_queue st) -> ~ In v old -> tconn (st_parent st) root v;
  i_queue_new : forall v, In v (st_queue st) -> ~ In v old
}.

Lemma order_irrefl old root cur st v q : sinv old root cur st -> st_parent st v <> Some (v, q).
Proof.
  intros I E. destruct (i_parent _ _ _ _ I _ _ _ E) as [H1 _].
  apply in_split in H1. destruct H1 as [l1 [l2 H1]].
  assert (H2 := i_order _ _ _ _ I _ _ _ _ _ H1 E).
  assert (N := i_nodup _ _ _ _ I). rewrite H1 in N. rewrite <- app_assoc in N. simpl in N.
  apply NoDup_remove_2 in N. apply N. apply in_or_app. right. apply in_or_app. left. exact H2.
Qed.

Lemma conn_without (par : nat -> option (nat * (nat * bool))) e a b :
  (forall v u q, par v = Some (u, q) -> In (v, q) (adj u) /\ fst q <> e) ->
  tconn par a b -> connected (firstn e edges ++ skipn (S e) edges) a b.
Proof.
  intros H C. unfold connected. induction C as [a b [[e' o] Hq]| | |].
  - destruct (H _ _ _ Hq) as [H1 H2]. simpl in H2. apply adjacency_in in H1.
    assert (K : forall x, nth_error edges e' = Some x -> In x (firstn e edges ++ skipn (S e) edges)).
    { intros x E. apply nth_error_split in E. destruct E as [l1 [l2 [E L]]].
      destruct (Nat.lt_trichotomy e' e) as [Q|[Q|Q]]; [|congruence|].
      - apply in_or_app. left. rewrite E. rewrite firstn_app. apply in_or_app. right.
        replace (e - length l1)%nat with (S (e - length l1 - 1)) by lia. simpl. auto.
      - apply in_or_app. right. rewrite E. rewrite skipn_app. apply in_or_app. right.
        replace (S e - length l1)%nat with 0%nat by lia. simpl. auto. }
    specialize (K _ H1). destruct o; [apply rst_sym|]; apply rst_step; exact K.
  - apply rst_refl.
  - apply rst_sym; auto.
  - eapply rst_trans; eauto.
Qed.

(** one node *)
Lemma visit_ok old root node : forall l done st,
  adj node = done ++ l ->
  sinv old root (Some (node, done)) st ->
  match visit_neighbors node l st with
  | Some st' => sinv old root None st' /\ st_traversal st' = st_traversal st
  | None => ~ acyclic edges
  end.
Proof.
  induction l as [|[nb q] l IH]; intros done st Hadj I; simpl.
  - split; [|reflexivity]. rewrite app_nil_r in Hadj. destruct I as [I1 I2 I3 I4 I5 I6 I7 I8 I9 I10].
    constructor; auto. intros u v q Hu Hv _. apply I6; auto. intros ->. rewrite <- Hadj. exact Hv.
  - assert (Hentry : In (nb, q) (adj node)) by (rewrite Hadj; apply in_elt).
    destruct (i_cur _ _ _ _ I) as [[tr Htr] [Hnold Hdone]].
    destruct (st_visited st nb) eqn:Ev; simpl.
    + destruct (st_parent st node) as [[p qp]|] eqn:Ep.
      * destruct (Nat.eqb_spec p nb) as [->|Npn].
        { (* parent: skip *)
          apply (IH (done ++ [(nb, q)])); [rewrite <- app_assoc; exact Hadj|].
          destruct I as [I1 I2 I3 I4 I5 I6 I7 I8 I9 I10]. constructor; auto.
          - intros u v q' Hu Hv Hc. destruct (Nat.eq_dec u node) as [->|Nu].
            + specialize (Hc eq_refl). apply in_app_or in Hc. destruct Hc as [Hc|[Hc|[]]].
              * apply I6; auto.
              * injection Hc as <- <-. split; auto. right. exists qp. exact Ep.
            + apply I6; auto. intros ->. congruence.
          - split; [eauto|]. split; auto. intros v q' E. apply in_or_app. left. auto. }
        { (* cycle *)
          intro AC. destruct q as [e o]. pose proof Hentry as He. apply adjacency_in in He.
          assert (Hv : In nb (st_traversal st ++ st_queue st)) by (apply (i_visited _ _ _ _ I); exact Ev).
          assert (Hnb : ~ In nb old).
          { intro Ho. apply Hnold. destruct (i_old _ _ _ _ I nb Ho) as [_ K].
            apply (K node (e, negb o)). apply adjacency_sym. exact Hentry. }
          assert (C1 := i_conn _ _ _ _ I _ Hv Hnb).
          assert (C2 : tconn (st_parent st) root node).
          { apply (i_conn _ _ _ _ I); auto. apply in_or_app. left. rewrite Htr. simpl; auto. }
          assert (C : tconn (st_parent st) node nb) by (eapply rst_trans; [apply rst_sym; exact C2|exact C1]).
          assert (CC : connected (firstn e edges ++ skipn (S e) edges) node nb).
          { apply (conn_without (st_parent st)); [|exact C]. intros x z [e' o'] Ex.
            destruct (i_parent _ _ _ _ I _ _ _ Ex) as [_ [_ Hx]]. split; [exact Hx|]. simpl. intros ->.
            destruct (adjacency_ends _ _ _ _ _ _ _ _ Hentry Hx) as [[-> [-> Ho]]|[-> ->]].
            - destruct Ho as [<-|E].
              + apply Hdone in Ex. assert (N := adjacency_nodup edges node). fold adj in N. rewrite Hadj in N.
                apply NoDup_remove_2 in N. apply N. apply in_or_app. left. exact Ex.
              + subst nb. exact (order_irrefl _ _ _ _ _ _ I Ex).
            - congruence. }
          destruct o; [apply (AC _ _ _ He), rst_sym|apply (AC _ _ _ He)]; exact CC. }
      * intro AC. destruct q as [e o]. pose proof Hentry as He. apply adjacency_in in He.
        assert (Hv : In nb (st_traversal st ++ st_queue st)) by (apply (i_visited _ _ _ _ I); exact Ev).
        assert (Hnb : ~ In nb old).
        { intro Ho. apply Hnold. destruct (i_old _ _ _ _ I nb Ho) as [_ K].
          apply (K node (e, negb o)). apply adjacency_sym. exact Hentry. }
        assert (C1 := i_conn _ _ _ _ I _ Hv Hnb).
        assert (C2 : tconn (st_parent st) root node).
        { apply (i_conn _ _ _ _ I); auto. apply in_or_app. left. rewrite Htr. simpl; auto. }
        assert (C : tconn (st_parent st) node nb) by (eapply rst_trans; [apply rst_sym; exact C2|exact C1]).
        assert (CC : connected (firstn e edges ++ skipn (S e) edges) node nb).
        { apply (conn_without (st_parent st)); [|exact C]. intros x z [e' o'] Ex.
          destruct (i_parent _ _ _ _ I _ _ _ Ex) as [_ [_ Hx]]. split; [exact Hx|]. simpl. intros ->.
          destruct (adjacency_ends _ _ _ _ _ _ _ _ Hentry Hx) as [[-> [-> Ho]]|[-> ->]].
          - destruct Ho as [<-|E].
            + apply Hdone in Ex. assert (N := adjacency_nodup edges node). fold adj in N. rewrite Hadj in N.
              apply NoDup_remove_2 in N. apply N. apply in_or_app. left. exact Ex.
            + subst nb. exact (order_irrefl _ _ _ _ _ _ I Ex).
          - rewrite Ep in Ex. discriminate. }
        destruct o; [apply (AC _ _ _ He), rst_sym|apply (AC _ _ _ He)]; exact CC.
    + (* discover *)
      assert (Hpn : st_parent st nb = None).
      { destruct (st_parent st nb) as [[u' q']|] eqn:E; auto. destruct (i_parent _ _ _ _ I _ _ _ E) as [_ [V _]]. congruence. }
      assert (Hnotin : ~ In nb (st_traversal st ++ st_queue st)) by (rewrite <- (i_visited _ _ _ _ I); congruence).
      assert (Hne : forall v x, st_parent st v = Some x -> upd (st_parent st) nb (Some (node, q)) v = Some x).
      { intros v x E. rewrite upd_neq; auto. intros ->. congruence. }
      assert (Hnode : In node (st_traversal st)) by (rewrite Htr; simpl; auto).
      set (st2 := SState (upd (st_visited st) nb true) (upd (st_parent st) nb (Some (node, q)))
                  (st_queue st ++ [nb]) (st_traversal st)).
      enough (I2' : sinv old root (Some (node, done ++ [(nb, q)])) st2).
      { specialize (IH (done ++ [(nb, q)]) st2). rewrite <- app_assoc in IH. simpl in IH. apply (IH Hadj I2'). }
      assert (IRR := fun v q => order_irrefl _ _ _ _ v q I).
      assert (Hirr : nb <> node).
      { intros ->. apply Hnotin. apply in_or_app. left. exact Hnode. }
      destruct I as [I1 I2 I3 I4 I5 I6 I7 I8 I9 I10]. constructor; simpl.
      * rewrite app_assoc. apply (Permutation_NoDup (Permutation_cons_append _ _)). constructor; auto.
      * intro v. rewrite app_assoc, in_app_iff. simpl. unfold upd. destruct (Nat.eqb_spec v nb) as [->|Nv].
        { split; auto. } { rewrite I2. split; [auto|]. intros [H|[H|[]]]; [exact H|congruence]. }
      * intro v. rewrite app_assoc, in_app_iff. intros [H|[<-|[]]]; [auto|]. eapply adjacency_lt; eauto.
      * intros v u q' E. unfold upd in *. destruct (Nat.eqb_spec v nb) as [->|Nv].
        { injection E as <- <-. auto. } { destruct (I4 _ _ _ E) as [A [B C]]. auto. }
      * intros l1 v l2 u q' E1 E2. rewrite upd_neq in E2; [eapply I5; eauto|].
        intros ->. apply Hnotin. apply in_or_app. left. rewrite E1. apply in_elt.
      * intros u v q' Hu Hv Hc.
        assert (K : (u = node /\ (v, q') = (nb, q)) \/ (u = node -> In (v, q') done)).
        { destruct (Nat.eq_dec u node) as [->|Nu]; [|right; intros; congruence].
          specialize (Hc eq_refl). apply in_app_or in Hc. destruct Hc as [Hc|[Hc|[]]]; auto. }
        destruct K as [[-> K]|K].
        { injection K as -> ->. rewrite !upd_eq. auto. }
        destruct (I6 u v q' Hu Hv K) as [A [B|[q2 B]]].
        { split; [unfold upd; destruct (v =? nb)%nat; auto|]. left. auto. }
        { split; [unfold upd; destruct (v =? nb)%nat; auto|]. right. exists q2. auto. }
      * split; [eauto|]. split; auto. intros v q' E. unfold upd in E. apply in_or_app.
        destruct (Nat.eqb_spec v nb) as [->|Nv]; [right; injection E as <-; simpl; auto|left; auto].
      * intros u Hu. destruct (I8 u Hu) as [A B]. split; auto. unfold upd. destruct (u =? nb)%nat; auto.
      * intro v. rewrite app_assoc, in_app_iff. intros [H|[<-|[]]] Hv.
        { apply (tconn_mono _ _ _ _ Hne). auto. }
        { eapply rst_trans; [apply (tconn_mono _ _ _ _ Hne), (I9 node); [apply in_or_app; auto|exact Hnold]|].
          apply rst_step. exists q. apply upd_eq. }
      * intros v Hv. apply in_app_or in Hv. destruct Hv as [Hv|[<-|[]]]; auto.
        intro Ho. destruct (I8 nb Ho) as [A _]. congruence.
Qed.

Lemma NoDup_lt_length (l : list nat) : NoDup l -> (forall v, In v l -> (v < n)%nat) -> (length l <= n)%nat.
Proof.
  intros N H. rewrite <- (seq_length n 0). apply NoDup_incl_length; auto.
  intros v Hv. apply in_seq. specialize (H v Hv). lia.
Qed.

Lemma search_loop_ok pop old root : pop_ok pop -> forall fuel st,
  sinv old root None st -> (n <= length (st_traversal st) + fuel)%nat ->
  (exists r, search_loop fuel pop adj st = Ok r /\
  match r with
  | Some st' => sinv old root None st' /\ st_queue st' = [] /\
                (forall v, st_visited st v = true -> st_visited st' v = true)
  | None => ~ acyclic edges
  end).
Proof.
  intros Hpop. induction fuel as [|fuel IH]; intros st I Hf; simpl.
  - assert (P := Hpop (st_queue st)). destruct (pop (st_queue st)) as [[x r]|].
    + exfalso. assert (L := NoDup_lt_length _ (i_nodup _ _ _ _ I) (i_lt _ _ _ _ I)).
      rewrite app_length in L. rewrite (Permutation_length P) in L. simpl in L. lia.
    + exists (Some st). split; auto.
  - assert (P := Hpop (st_queue st)). destruct (pop (st_queue st)) as [[x r]|].
    2: { exists (Some st). split; auto. }
    set (st1 := SState (st_visited st) (st_parent st) r (x :: st_traversal st)).
    assert (PP : Permutation (st_traversal st ++ st_queue st) ((x :: st_traversal st) ++ r)).
    { rewrite P. simpl. apply Permutation_sym, Permutation_middle. }
    assert (I1 : sinv old root (Some (x, [])) st1).
    { assert (Hnx : ~ In x (st_traversal st)).
      { assert (N := i_nodup _ _ _ _ I). apply (Permutation_NoDup PP) in N. simpl in N. inversion N; subst.
        intro. apply H1. apply in_or_app. auto. }
      assert (Hxq : In x (st_queue st)) by (rewrite P; simpl; auto).
      assert (J := i_queue_new _ _ _ _ I x Hxq).
      destruct I as [J1 J2 J3 J4 J5 J6 J7 J8 J9 J10]. constructor; unfold st1; simpl.
      - apply (Permutation_NoDup PP J1).
      - intro v. rewrite J2. split; intro H; [apply (Permutation_in _ PP H)|apply (Permutation_in _ (Permutation_sym PP) H)].
      - intros v Hv. apply J3, (Permutation_in _ (Permutation_sym PP) Hv).
      - intros v u q E. destruct (J4 _ _ _ E) as [A [B C]]. auto.
      - intros l1 v l2 u q E1 E2. destruct l1 as [|y l1]; simpl in E1; injection E1 as E0 E1.
        + subst. apply (J4 _ _ _ E2).
        + eapply J5; eauto.
      - intros u v q Hu Hv Hc. destruct Hu as [<-|Hu]; [destruct (Hc eq_refl)|]. apply (J6 u v q Hu Hv I).
      - split; [eauto|]. split; auto. intros v q E. exfalso. apply Hnx. apply (J4 _ _ _ E).
      - exact J8.
      - intros v Hv. apply J9, (Permutation_in _ (Permutation_sym PP) Hv).
      - intros v Hv. apply J10. rewrite P. simpl; auto. }
    assert (V := visit_ok old root x (adj x) [] st1 eq_refl I1).
    destruct (visit_neighbors x (adj x) st1) as [st2|] eqn:E2.
    + destruct V as [I2 T2]. destruct (IH st2 I2) as [r' [E3 K]]; [rewrite T2; simpl; lia|].
      exists r'. split; [exact E3|]. destruct r' as [st3|]; [|exact K].
      destruct K as [K1 [K2 K3]]. split; auto. split; auto.
      intros v Hv. apply K3. clear - E2 Hv I1.
      assert (M : forall l s s', visit_neighbors x l s = Some s' -> forall v, st_visited s v = true -> st_visited s' v = true).
      { induction l as [|[nb q] l IHl]; simpl; intros s s' E w Hw; [injection E as <-; exact Hw|].
        destruct (negb (st_visited s nb)).
        - eapply IHl; [exact E|]. simpl. unfold upd. destruct (w =? nb)%nat; auto.
        - destruct (st_parent s x) as [[p ?]|]; [|discriminate]. destruct (p =? nb)%nat; [|discriminate]. eapply IHl; eauto. }
      eapply M; eauto.
    + exists None. auto.
Qed.

(** what is known between components, and at the end *)
Record done_inv (st : search_state) : Prop := {
  d_queue : st_queue st = [];
  d_nodup : NoDup (st_traversal st);
  d_visited : forall v, st_visited st v = true <-> In v (st_traversal st);
  d_lt : forall v, In v (st_traversal st) -> (v < n)%nat;
  d_parent : forall v u q, st_parent st v = Some (u, q) -> In u (st_traversal st) /\ In v (st_traversal st) /\ In (v, q) (adj u);
  d_order : forall l1 v l2 u q, st_traversal st = l1 ++ v :: l2 -> st_parent st v = Some (u, q) -> In u l2;
  d_entries : forall u v q, In u (st_traversal st) -> In (v, q) (adj u) ->
     In v (st_traversal st) /\ (st_parent st v = Some (u, q) \/ exists q', st_parent st u = Some (v, q'))
}.

Lemma search_all_ok pop : pop_ok pop -> forall vs st,
  done_inv st -> (forall v, In v vs -> (v < n)%nat) ->
  exists r, search_all n pop adj vs st = Ok r /\
  match r with
  | Some st' => done_inv st' /\ (forall v, In v vs -> st_visited st' v = true) /\
                (forall v, st_visited st v = true -> st_visited st' v = true)
  | None => ~ acyclic edges
  end.
Proof.
  intro Hpop. induction vs as [|i vs IH]; intros st D Hlt; simpl.
  - exists (Some st). split; [reflexivity|]. split; [exact D|]. split; [intros ? []|auto].
  - destruct (st_visited st i) eqn:Ev.
    + destruct (IH st D) as [r [E K]]; [intros; apply Hlt; simpl; auto|]. exists r. split; auto.
      destruct r as [st'|]; auto. destruct K as [K1 [K2 K3]]. split; auto. split; auto.
      intros v [<-|Hv]; auto.
    + set (st1 := SState (upd (st_visited st) i true) (st_parent st) [i] (st_traversal st)).
      assert (Hni : ~ In i (st_traversal st)) by (rewrite <- (d_visited _ D); congruence).
      assert (I : sinv (st_traversal st) i None st1).
      { destruct D as [D0 D1 D2 D3 D4 D5 D6]. constructor; unfold st1; simpl.
        - apply (Permutation_NoDup (Permutation_cons_append _ _)). constructor; auto.
        - intro v. rewrite in_app_iff. unfold upd. destruct (Nat.eqb_spec v i) as [->|N]; [simpl; tauto|].
          rewrite D2. simpl. split; [auto|]. intros [H|[H|[]]]; [auto|congruence].
        - intros v Hv. apply in_app_or in Hv. destruct Hv as [Hv|[<-|[]]]; auto. apply Hlt. simpl; auto.
        - intros v u q E. destruct (D4 _ _ _ E) as [A [B C]]. split; auto. split; auto.
          apply D2 in B. unfold upd. destruct (v =? i)%nat; auto.
        - exact D5.
        - intros u v q Hu Hv _. destruct (D6 _ _ _ Hu Hv) as [A B]. split; auto.
          apply D2 in A. unfold upd. destruct (v =? i)%nat; auto.
        - exact Logic.I.
        - intros u Hu. split; [unfold upd; apply D2 in Hu; destruct (u =? i)%nat; auto|].
          intros v q Hv. apply (D6 _ _ _ Hu Hv).
        - intros v Hv Hn. apply in_app_or in Hv. destruct Hv as [Hv|[<-|[]]]; [contradiction|]. apply rst_refl.
        - intros v [<-|[]]. exact Hni. }
      destruct (search_loop_ok pop _ _ Hpop n st1 I) as [r [E K]]; [simpl; lia|].
      fold st1. rewrite E. cbn [bind]. destruct r as [st2|].
      2: { exists None. auto. }
      destruct K as [K1 [K2 K3]].
      assert (D2 : done_inv st2).
      { destruct K1 as [J1 J2 J3 J4 J5 J6 J7 J8 J9 J10]. rewrite K2 in *. rewrite app_nil_r in *. constructor; auto.
        - intros v u q Eq. destruct (J4 _ _ _ Eq) as [A [B C]]. split; auto. split; auto. apply J2, B.
        - intros u v q Hu Hv. destruct (J6 u v q Hu Hv Logic.I) as [A B]. split; auto. apply J2, A. }
      destruct (IH st2 D2) as [r [E' K']]; [intros; apply Hlt; simpl; auto|]. exists r. split; auto.
      destruct r as [st'|]; auto. destruct K' as [L1 [L2 L3]]. split; auto. split.
      * intros v [<-|Hv]; auto. apply L3, K3. simpl. apply upd_eq.
      * intros v Hv. apply L3, K3. simpl. unfold upd. destruct (v =? i)%nat; auto.
Qed.

(** Result of the whole search. *)
Lemma search_ok pop : pop_ok pop ->
  exists r, search n pop edges = Ok r /\
  match r with
  | Some st => done_inv st /\ (forall v, (v < n)%nat -> In v (st_traversal st))
  | None => ~ acyclic edges
  end.
Proof.
  intro Hpop. unfold search.
  destruct (search_all_ok pop Hpop (seq 0 n) (SState (fun _ => false) (fun _ => None) [] [])) as [r [E K]].
  - constructor; simpl; auto; try (intros; contradiction); try discriminate.
    all: try constructor; try discriminate; try (intros []).
    all: try (intros l1 v l2 u q E; destruct l1; discriminate).
  - intros v Hv. apply in_seq in Hv. lia.
  - exists r. split; auto. destruct r; auto. destruct K as [K1 [K2 K3]]. split; auto.
    intros v Hv. apply (d_visited _ K1), K2, in_seq. lia.
Qed.

(** Every edge is a parent-child pair, through that very edge. *)
Section Final.
Variable st : search_state.
Hypothesis D : done_inv st.
Hypothesis All : forall v, (v < n)%nat -> In v (st_traversal st).
Let par := st_parent st.

Lemma before_asym u v q q' : par u = Some (v, q) -> par v = Some (u, q') -> False.
Proof.
  intros E1 E2. destruct (d_parent _ D _ _ _ E1) as [Hv [Hu _]].
  apply in_split in Hu. destruct Hu as [l1 [l2 Hu]].
  assert (H1 := d_order _ D _ _ _ _ _ Hu E1).
  apply in_split in H1. destruct H1 as [l3 [l4 H1]]. subst l2.
  assert (Hu' : st_traversal st = (l1 ++ u :: l3) ++ v :: l4) by (rewrite <- app_assoc; exact Hu).
  assert (H2 := d_order _ D _ _ _ _ _ Hu' E2).
  assert (N := d_nodup _ D). rewrite Hu in N. apply NoDup_remove_2 in N. apply N.
  apply in_or_app. right. apply in_or_app. right. simpl. auto.
Qed.

Lemma edge_child e a b : nth_error edges e = Some (a, b) ->
  par b = Some (a, (e, false)) \/ par a = Some (b, (e, true)).
Proof.
  intro H.
  assert (Ha : In (b, (e, false)) (adj a)) by (apply adjacency_in; exact H).
  assert (Hb : In (a, (e, true)) (adj b)) by (apply adjacency_in; exact H).
  destruct (adjacency_lt n edges _ _ _ Hg Ha) as [La Lb].
  destruct (d_entries _ D _ _ _ (All a La) Ha) as [_ [K|[q K]]]; auto.
  destruct (d_entries _ D _ _ _ (All b Lb) Hb) as [_ [K'|[q' K']]]; auto.
  exfalso. eapply before_asym; eauto.
Qed.

Lemma child_edge v u e o : par v = Some (u, (e, o)) -> nth_error edges e = Some (if o then (v, u) else (u, v)).
Proof. intro H. destruct (d_parent _ D _ _ _ H) as [_ [_ K]]. apply adjacency_in in K. exact K. Qed.

Lemma child_unique v u e o v' u' o' : par v = Some (u, (e, o)) -> par v' = Some (u', (e, o')) -> v = v' /\ o = o'.
Proof.
  intros H1 H2. assert (E1 := child_edge _ _ _ _ H1). assert (E2 := child_edge _ _ _ _ H2).
  rewrite E1 in E2.
  assert (N : forall v q, par v <> Some (v, q)) by (intros w q E; eapply before_asym; eauto).
  destruct o, o'; injection E2 as <- <-; auto; exfalso; eapply before_asym; eauto.
Qed.

(** descendants *)
Inductive desc (c : nat) : nat -> Prop :=
| desc_refl : desc c c
| desc_step v u q : par v = Some (u, q) -> desc c u -> desc c v.

Lemma desc_not_before c v : desc c v -> forall l1 l2, st_traversal st = l1 ++ c :: l2 -> ~ In v l2.
Proof.
  induction 1 as [|v u q Hp Hd IH]; intros l1 l2 E Hin.
  - assert (N := d_nodup _ D). rewrite E in N. apply NoDup_remove_2 in N. apply N, in_or_app. auto.
  - apply (IH _ _ E). apply in_split in Hin. destruct Hin as [l3 [l4 ->]].
    assert (E' : st_traversal st = (l1 ++ c :: l3) ++ v :: l4) by (rewrite <- app_assoc; exact E).
    assert (H := d_order _ D _ _ _ _ _ E' Hp). apply in_or_app. right. simpl. auto.
Qed.

Lemma in_removed e (x : nat * nat) : In x (firstn e edges ++ skipn (S e) edges) ->
  exists e', e' <> e /\ nth_error edges e' = Some x.
Proof.
  intro H. apply in_app_or in H. destruct H as [H|H]; apply In_nth_error in H; destruct H as [i H].
  - assert (i < e)%nat.
    { destruct (Nat.lt_ge_cases i e); auto. assert (nth_error (firstn e edges) i = None).
      { apply nth_error_None. rewrite firstn_length. lia. } congruence. }
    exists i. split; [lia|]. rewrite <- H. rewrite <- (firstn_skipn e edges) at 1. apply nth_error_app1.
    rewrite firstn_length. assert (nth_error (firstn e edges) i <> None) by congruence. apply nth_error_Some in H1.
    rewrite firstn_length in H1. exact H1.
  - exists (S e + i)%nat. split; [lia|]. rewrite <- H. clear. revert edges. generalize (S e) as m.
    induction m; intros l; simpl; auto. destruct l; simpl; auto. destruct i; reflexivity.
Qed.

Lemma forest_acyclic : acyclic edges.
Proof.
  intros e a b H C.
  assert (K : exists c p o, par c = Some (p, (e, o)) /\ connected (firstn e edges ++ skipn (S e) edges) c p).
  { destruct (edge_child _ _ _ H) as [K|K]; [exists b, a, false|exists a, b, true]; split; auto. apply rst_sym; exact C. }
  destruct K as [c [p [o [Hc Hcon]]]].
  assert (Hstep : forall x y, In (x, y) (firstn e edges ++ skipn (S e) edges) -> desc c x <-> desc c y).
  { intros x y Hin. destruct (in_removed _ _ Hin) as [e' [Ne He']].
    assert (KK : forall x y o', par y = Some (x, (e', o')) -> (desc c x <-> desc c y)).
    { intros x' y' o' Hp. split; intro Hd.
      - econstructor; eauto.
      - inversion Hd as [E|v u q E Hu]; subst.
        + rewrite Hc in Hp. injection Hp as _ E _. congruence.
        + rewrite Hp in E. injection E as <- <-. exact Hu. }
    destruct (edge_child _ _ _ He') as [Hp|Hp]; [apply (KK _ _ _ Hp)|symmetry; apply (KK _ _ _ Hp)]. }
  assert (Hall : desc c c <-> desc c p).
  { assert (G : forall x y, connected (firstn e edges ++ skipn (S e) edges) x y -> (desc c x <-> desc c y)).
    { intros x y Hxy. unfold connected in Hxy. induction Hxy; [apply Hstep; auto|reflexivity|symmetry; auto|etransitivity; eauto]. }
    apply G. exact Hcon. }
  assert (Dp : desc c p) by (apply Hall; constructor).
  destruct (d_parent _ D _ _ _ Hc) as [_ [Hin _]]. apply in_split in Hin. destruct Hin as [l1 [l2 E]].
  apply (desc_not_before _ _ Dp _ _ E). eapply (d_order _ D); eauto.
Qed.

Lemma forest_edge_count : (0 < n)%nat -> (length edges < n)%nat.
Proof.
  intro Hn.
  (* the last element of the traversal is a root; every edge has its own child *)
  destruct (rev (st_traversal st)) as [|r rest] eqn:E.
  { assert (In 0%nat (st_traversal st)) by (apply All; exact Hn). rewrite <- (rev_involutive (st_traversal st)), E in H. destruct H. }
  assert (Et : st_traversal st = rev rest ++ [r]) by (rewrite <- (rev_involutive (st_traversal st)), E; reflexivity).
  assert (Hr : par r = None).
  { destruct (par r) as [[u q]|] eqn:Er; auto. destruct (d_order _ D _ _ _ _ _ Et Er). }
  set (child := fun e => let '(a, b) := nth e edges (0, 0)%nat in
        match par b with Some (_, (e', _)) => if (e' =? e)%nat then b else a | None => a end).
  assert (HC : forall e, (e < length edges)%nat -> exists u o, par (child e) = Some (u, (e, o))).
  { intros e He. destruct (nth e edges (0, 0)%nat) as [a b] eqn:Eab.
    assert (Hn' : nth_error edges e = Some (a, b)) by (rewrite <- Eab; apply nth_error_nth'; exact He).
    unfold child. rewrite Eab. destruct (edge_child _ _ _ Hn') as [K|K].
    - rewrite K, Nat.eqb_refl. eauto.
    - destruct (par b) as [[u [e' o']]|] eqn:Eb; [|eauto]. destruct (Nat.eqb_spec e' e); [subst; eauto|eauto]. }
  assert (N : NoDup (r :: map child (seq 0 (length edges)))).
  { constructor.
    - intro H. apply in_map_iff in H. destruct H as [e [E1 E2]]. apply in_seq in E2.
      destruct (HC e) as [u [o K]]; [lia|]. rewrite E1, Hr in K. discriminate.
    - apply NoDup_nth with (d := 0%nat). rewrite map_length, seq_length. intros i j Hi Hj Eij.
      rewrite !(nth_map_in child _ _ O), !seq_nth in Eij by (rewrite ?seq_length; assumption). simpl in Eij.
      destruct (HC i Hi) as [u [o K]]. destruct (HC j Hj) as [u' [o' K']]. rewrite Eij, K' in K. congruence. }
  apply NoDup_lt_length in N.
  - simpl in N. rewrite map_length, seq_length in N. lia.
  - intros v [<-|Hv].
    + apply (d_lt _ D). rewrite Et. apply in_or_app. simpl; auto.
    + apply in_map_iff in Hv. destruct Hv as [e [<- He]]. apply in_seq in He. destruct (HC e) as [u [o K]]; [lia|].
      apply (d_lt _ D). apply (d_parent _ D _ _ _ K).
Qed.
End Final.
End Search.

Lemma max_vertex_ok edges : graph_edges (S (max_vertex edges)) edges.
Proof.
  unfold graph_edges. induction edges as [|[a b] edges IH]; constructor; simpl.
  - lia.
  - eapply Forall_impl; [|exact IH]. simpl. intros [c d]. simpl. lia.
Qed.

Lemma is_forest_correct edges nv : edges <> [] ->
  (match nv with Some m => graph_edges m edges | None => True end) ->
  exists b, is_forest edges nv = Ok b /\ (b = true <-> acyclic edges).
Proof.
  intros Hne Hnv.
  set (n := S (max_vertex edges)).
  assert (Hg : graph_edges n edges) by apply max_vertex_ok.
  destruct (search_ok n edges Hg pop_last pop_last_ok) as [r [E K]].
  unfold is_forest.
  assert (Hmany : forall m, nv = Some m -> (m <= length edges)%nat -> ~ acyclic edges).
  { intros m -> Hm AC. simpl in Hnv.
    destruct (search_ok m edges Hnv pop_last pop_last_ok) as [r' [E' K']].
    destruct r' as [st'|]; [|contradiction]. destruct K' as [D All].
    assert (C := forest_edge_count m edges Hnv st' D All).
    destruct m; [|lia]. destruct edges as [|[a b] ?]; [congruence|]. inversion Hnv; subst. simpl in *. lia. }
  destruct (match nv with Some m => (m <=? length edges)%nat | None => false end) eqn:Et.
  - exists false. split; auto. split; [discriminate|]. intro AC. exfalso. destruct nv as [m|]; [|discriminate].
    apply Nat.leb_le in Et. eapply Hmany; eauto.
  - destruct edges as [|e0 es]; [congruence|]. fold n. rewrite E. cbn [bind].
    destruct r as [st|]; eexists; (split; [reflexivity|]).
    + destruct K as [D All]. split; auto. intros _. exact (forest_acyclic n _ Hg st D All).
    + split; [discriminate|]. intro AC. contradiction.
Qed.
