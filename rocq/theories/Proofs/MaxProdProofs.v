From Verif Require Import Model.MaxProd Spec.GraphTheory Spec.Energy Spec.SolverSpec
  Proofs.Arrays Proofs.EnergyProofs Proofs.LossProofs Proofs.ViterbiProofs Proofs.SearchProofs.
From Coq Require Import Permutation.

(** ** max_rows *)
Lemma max_rows_ok n m f : (0 < m)%nat -> exists r, max_rows n m f = Ok r /\ length r = n /\
  forall s, (s < n)%nat -> (forall t, (t < m)%nat -> f s t <= get1 r s) /\
    exists t, (t < m)%nat /\ get1 r s = f s t.
Proof.
  intro Hm. unfold max_rows.
  assert (G : forall l, exists r, mapM (fun s => np_max (tab1 m (f s))) l = Ok r).
  { induction l as [|s l [r E]]; simpl; eauto.
    assert (exists x, np_max (tab1 m (f s)) = Ok x) as [x Ex].
    { destruct (tab1 m (f s)) eqn:Et; [|simpl; eauto]. assert (length (tab1 m (f s)) = 0%nat) by (rewrite Et; reflexivity).
      rewrite tab1_length in H. lia. }
    rewrite Ex, E. simpl. eauto. }
  destruct (G (seq 0 n)) as [r E]. exists r. split; auto.
  assert (HL := mapM_length _ _ _ E). rewrite seq_length in HL. split; auto.
  intros s Hs. assert (N := mapM_nth _ _ _ s O 0 E). rewrite seq_length in N. specialize (N Hs).
  rewrite seq_nth in N by exact Hs. simpl in N. apply np_max_spec in N. destruct N as [N1 N2].
  fold (get1 r s) in *. split.
  - intros t Ht. apply N2. rewrite <- (get1_tab1 m (f s) t Ht). unfold get1. apply nth_In. rewrite tab1_length. exact Ht.
  - unfold tab1 in N1. apply in_map_iff in N1. destruct N1 as [t [Et Ht]]. apply in_seq in Ht. exists t. split; [lia|auto].
Qed.
Lemma np_max_ok l : (0 < length l)%nat -> exists m, np_max l = Ok m.
Proof. destruct l; simpl; [lia|eauto]. Qed.
Lemma sub_max_length l m : length (sub_max l m) = length l.
Proof. apply map_length. Qed.
Lemma get1_sub_max l m i : (i < length l)%nat -> get1 (sub_max l m) i = get1 l i - m.
Proof. intro H. unfold get1, sub_max. rewrite (nth_map_in _ _ _ 0) by exact H. reflexivity. Qed.

Section Tree.
Variables (n k : nat) (U : mat) (pws : list (list (list Qc))) (edges : list (nat * nat)).
Hypothesis Hk : (0 < k)%nat.
Hypothesis Hg : graph_edges n edges.
Variable st : search_state.
Hypothesis D : done_inv n edges st.
Hypothesis All : forall v, (v < n)%nat -> In v (st_traversal st).
Let par := st_parent st.
Let W := entry_pw pws.

(** ** backward pass *)
(** [mb] after handling the list [done] of nodes: sum over handled children *)
Definition children_sum (l : list nat) (g : nat -> Qc) (p : nat) : Qc :=
  lsum (map (fun c => match par c with Some (u, _) => if (u =? p)%nat then g c else 0 | None => 0 end) l).

(** M: unnormalised backward message of child c, N: its maximum *)
Lemma backward_ok : forall todo done mb (M : nat -> list Qc) (N : nat -> Qc),
  st_traversal st = done ++ todo ->
  (forall v, length (mb v) = k) ->
  (forall v s, (s < k)%nat -> get1 (mb v) s = children_sum done (fun c => get1 (M c) s - N c) v) ->
  (forall c p q, In c done -> par c = Some (p, q) ->
     length (M c) = k /\ forall s, (s < k)%nat ->
       (forall t, (t < k)%nat -> get1 (mb c) t + mget U c t + W q s t <= get1 (M c) s) /\
       exists t, (t < k)%nat /\ get1 (M c) s = get1 (mb c) t + mget U c t + W q s t) ->
  exists mb' M' N', tree_backward k U pws par todo mb = Ok mb' /\
    (forall v, length (mb' v) = k) /\
    (forall v s, (s < k)%nat -> get1 (mb' v) s = children_sum (st_traversal st) (fun c => get1 (M' c) s - N' c) v) /\
    (forall c p q, In c (st_traversal st) -> par c = Some (p, q) ->
     length (M' c) = k /\ forall s, (s < k)%nat ->
       (forall t, (t < k)%nat -> get1 (mb' c) t + mget U c t + W q s t <= get1 (M' c) s) /\
       exists t, (t < k)%nat /\ get1 (M' c) s = get1 (mb' c) t + mget U c t + W q s t).
Proof.
  induction todo as [|v todo IH]; intros done mb M N Et HL Hmb HM.
  - rewrite app_nil_r in Et. exists mb, M, N. rewrite Et. simpl. auto.
  - assert (Hdup := d_nodup _ _ _ D). rewrite Et in Hdup.
    assert (Hvd : ~ In v done).
    { intro H. apply NoDup_remove_2 in Hdup. apply Hdup, in_or_app. auto. }
    assert (Et' : st_traversal st = (done ++ [v]) ++ todo) by (rewrite <- app_assoc; exact Et).
    cbn [tree_backward]. destruct (par v) as [[p q]|] eqn:Ep.
    + destruct (max_rows_ok k k (fun s t => get1 (mb v) t + mget U v t + W q s t) Hk) as [msg [E1 [L1 S1]]].
      fold W. rewrite E1. cbn [bind]. destruct (np_max_ok msg) as [mx E2]; [lia|]. rewrite E2. cbn [bind].
      assert (Hp : In p todo) by (eapply (d_order _ _ _ D); eauto).
      assert (Hpd : ~ In p (done ++ [v])).
      { intro H. apply in_split in Hp. destruct Hp as [t1 [t2 Hp]]. subst todo.
        rewrite app_assoc in Et'. assert (Q := d_nodup _ _ _ D). rewrite Et' in Q.
        apply NoDup_remove_2 in Q. apply Q. apply in_or_app. left. apply in_or_app. left. exact H. }
      apply (IH (done ++ [v]) _ (upd M v msg) (upd N v mx)); auto.
      * intro u. unfold upd. destruct (Nat.eqb_spec u p) as [->|]; auto.
        rewrite vadd_length; auto. rewrite HL, sub_max_length. congruence.
      * intros u s Hs. unfold children_sum. rewrite map_app, lsum_app.
        assert (Eold : lsum (map (fun c => match par c with
                | Some (u0, _) => if (u0 =? u)%nat then get1 (upd M v msg c) s - upd N v mx c else 0
                | None => 0 end) done) = get1 (mb u) s).
        { rewrite Hmb by exact Hs. unfold children_sum. apply f_equal. apply map_ext_in.
          intros c Hc. assert (c <> v) by (intros ->; contradiction). rewrite !upd_neq by assumption. reflexivity. }
        rewrite Eold. simpl. rewrite Ep, !upd_eq. unfold upd at 1. rewrite (Nat.eqb_sym p u).
        destruct (Nat.eqb_spec u p) as [->|].
        { rewrite get1_vadd by (rewrite ?HL, ?sub_max_length; congruence).
          rewrite get1_sub_max by lia. ring. }
        { ring. }
      * intros c p' q' Hc Epc. apply in_app_or in Hc. destruct Hc as [Hc|[<-|[]]].
        { assert (c <> v) by (intros ->; contradiction). rewrite (upd_neq M) by assumption.
          assert (c <> p) by (intros ->; apply Hpd, in_or_app; auto). rewrite (upd_neq mb) by assumption. eauto. }
        { rewrite upd_eq. assert (v <> p) by (intros ->; apply Hpd, in_or_app; simpl; auto). rewrite (upd_neq mb) by assumption.
          rewrite Ep in Epc. injection Epc as <- <-. split; auto. }
    + apply (IH (done ++ [v]) mb M N); auto.
      * intros u s Hs. rewrite Hmb by exact Hs. unfold children_sum. rewrite map_app, lsum_app. simpl. rewrite Ep. ring.
      * intros c p' q' Hc Epc. apply in_app_or in Hc. destruct Hc as [Hc|[<-|[]]]; eauto. congruence.
Qed.

(** ** forward pass *)
Section Forward.
Variables (mb M : nat -> list Qc).
Hypothesis HLmb : forall v, length (mb v) = k.
Hypothesis HM : forall c p q, par c = Some (p, q) ->
     length (M c) = k /\ forall s, (s < k)%nat ->
       (forall t, (t < k)%nat -> get1 (mb c) t + mget U c t + W q s t <= get1 (M c) s) /\
       exists t, (t < k)%nat /\ get1 (M c) s = get1 (mb c) t + mget U c t + W q s t.

(** belief and slack *)
Definition belief (mf : nat -> list Qc) (v s : nat) : Qc := mget U v s + get1 (mf v) s + get1 (mb v) s.
Definition slack (c s t : nat) : Qc :=
  match par c with
  | Some (p, q) => get1 (mb c) t + mget U c t + W q s t - get1 (M c) s
  | None => 0
  end.

Lemma slack_nonpos c p q s t : par c = Some (p, q) -> (s < k)%nat -> (t < k)%nat -> slack c s t <= 0.
Proof.
  intros E Hs Ht. unfold slack. rewrite E. destruct (HM _ _ _ E) as [_ H]. destruct (H s Hs) as [H1 _].
  specialize (H1 t Ht). qclra.
Qed.
Lemma slack_attained c p q s : par c = Some (p, q) -> (s < k)%nat -> exists t, (t < k)%nat /\ slack c s t = 0.
Proof.
  intros E Hs. unfold slack. rewrite E. destruct (HM _ _ _ E) as [_ H]. destruct (H s Hs) as [_ [t [Ht Et]]].
  exists t. split; auto. rewrite Et. ring.
Qed.

Lemma forward_ok : forall todo done mf,
  rev (st_traversal st) = done ++ todo ->
  (forall v, length (mf v) = k) ->
  (forall v s, (par v = None \/ ~ In v done) -> (s < k)%nat -> get1 (mf v) s = 0) ->
  (forall c p q, In c done -> par c = Some (p, q) ->
     exists kc, forall t, (t < k)%nat ->
       (forall s, (s < k)%nat -> belief mf p s + slack c s t <= belief mf c t + kc) /\
       exists s, (s < k)%nat /\ belief mf p s + slack c s t = belief mf c t + kc) ->
  exists mf', tree_forward k U pws par mb todo mf = Ok mf' /\
    (forall v, length (mf' v) = k) /\
    (forall v s, par v = None -> (s < k)%nat -> get1 (mf' v) s = 0) /\
    (forall c p q, In c (st_traversal st) -> par c = Some (p, q) ->
     exists kc, forall t, (t < k)%nat ->
       (forall s, (s < k)%nat -> belief mf' p s + slack c s t <= belief mf' c t + kc) /\
       exists s, (s < k)%nat /\ belief mf' p s + slack c s t = belief mf' c t + kc).
Proof.
  induction todo as [|v todo IH]; intros done mf Et HL H0 Hf.
  - rewrite app_nil_r in Et. exists mf. simpl. split; auto. split; auto. split; auto.
    intros c p q Hc. apply Hf. rewrite <- Et. apply -> in_rev. exact Hc.
  - assert (Etr : st_traversal st = rev todo ++ v :: rev done).
    { rewrite <- (rev_involutive (st_traversal st)), Et, rev_app_distr. simpl. rewrite <- app_assoc. reflexivity. }
    assert (Hdup := d_nodup _ _ _ D). rewrite Etr in Hdup.
    assert (Hvd : ~ In v done).
    { intro H. apply NoDup_remove_2 in Hdup. apply Hdup, in_or_app. right. apply -> in_rev. exact H. }
    assert (Et' : rev (st_traversal st) = (done ++ [v]) ++ todo) by (rewrite <- app_assoc; exact Et).
    cbn [tree_forward]. destruct (par v) as [[p q]|] eqn:Ep.
    + destruct (max_rows_ok k k (fun s t => get1 (mb v) t + mget U v t + W q s t) Hk) as [back [E1 [L1 S1]]].
      fold W. rewrite E1. cbn [bind].
      assert (Eback : forall s, (s < k)%nat -> get1 back s = get1 (M v) s).
      { intros s Hs. destruct (S1 s Hs) as [A [t [Ht B]]]. destruct (HM _ _ _ Ep) as [_ H]. destruct (H s Hs) as [A' [t' [Ht' B']]].
        specialize (A t' Ht'). specialize (A' t Ht). rewrite B', B in *. apply Qcle_antisym; auto. }
      destruct (max_rows_ok k k (fun t s => get1 (mf p) s + mget U p s + W q s t + (get1 (mb p) s - get1 back s)) Hk)
        as [msg [E2 [L2 S2]]].
      rewrite E2. cbn [bind]. destruct (np_max_ok msg) as [mx E3]; [lia|]. rewrite E3. cbn [bind].
      assert (Hp : In p done).
      { apply in_rev. eapply (d_order _ _ _ D); eauto. }
      assert (Npv : p <> v) by (intros ->; contradiction).
      apply (IH (done ++ [v])); auto.
      * intro u. unfold upd. destruct (Nat.eqb_spec u v) as [->|]; auto. rewrite vadd_length; auto.
        rewrite HL, sub_max_length. congruence.
      * intros u s Hu Hs. rewrite upd_neq.
        { apply H0; auto. destruct Hu as [Hu|Hu]; auto. right. intro. apply Hu, in_or_app. auto. }
        { intros ->. destruct Hu as [Hu|Hu]; [congruence|]. apply Hu, in_or_app. simpl; auto. }
      * intros c p' q' Hc Epc.
        assert (Hbel : forall x s, x <> v -> belief (upd mf v (vadd (mf v) (sub_max msg mx))) x s = belief mf x s).
        { intros x s Hx. unfold belief. rewrite upd_neq by exact Hx. reflexivity. }
        apply in_app_or in Hc. destruct Hc as [Hc|[<-|[]]].
        { destruct (Hf _ _ _ Hc Epc) as [kc Hkc]. exists kc.
          assert (c <> v) by (intros ->; contradiction).
          assert (p' <> v).
          { intros ->. (* parent v of c in done, v not in done *)
            destruct (in_split _ _ Hc) as [d1 [d2 Ed]]. subst done.
            rewrite rev_app_distr in Etr. simpl in Etr. rewrite <- app_assoc in Etr. simpl in Etr.
            assert (Etr2 : st_traversal st = (rev todo ++ v :: rev d2) ++ c :: rev d1) by (rewrite <- app_assoc; exact Etr).
            assert (H2 := d_order _ _ _ D _ _ _ _ _ Etr2 Epc). apply Hvd. apply in_or_app. left. apply in_rev. exact H2. }
          intros t Ht. destruct (Hkc t Ht) as [A [s [Hs B]]]. split.
          - intros s' Hs'. rewrite !Hbel by assumption. auto.
          - exists s. split; auto. rewrite !Hbel by assumption. exact B. }
        { rewrite Ep in Epc. injection Epc as <- <-. 
          exists mx. intros t Ht.
          assert (Ebv : belief (upd mf v (vadd (mf v) (sub_max msg mx))) v t + mx = get1 msg t + mget U v t + get1 (mb v) t).
          { unfold belief. rewrite upd_eq, get1_vadd by (rewrite ?HL, ?sub_max_length; congruence).
            rewrite get1_sub_max by lia. rewrite (H0 v t) by auto. ring. }
          assert (Estep : forall s, (s < k)%nat ->
             get1 (mf p) s + mget U p s + W q s t + (get1 (mb p) s - get1 back s) + mget U v t + get1 (mb v) t =
             belief (upd mf v (vadd (mf v) (sub_max msg mx))) p s + slack v s t).
          { intros s Hs. rewrite Hbel by exact Npv. unfold belief, slack. rewrite Ep, (Eback s Hs). ring. }
          rewrite Ebv. destruct (S2 t Ht) as [A [s [Hs B]]]. split.
          - intros s' Hs'. specialize (A s' Hs'). rewrite <- Estep by exact Hs'. qclra.
          - exists s. split; auto. rewrite <- Estep by exact Hs. rewrite B. reflexivity. }
    + apply (IH (done ++ [v])); auto.
      * intros u s Hu Hs. apply H0; auto. destruct Hu as [Hu|Hu]; auto. right. intro. apply Hu, in_or_app. auto.
      * intros c p' q' Hc Epc. apply in_app_or in Hc. destruct Hc as [Hc|[<-|[]]]; eauto. congruence.
Qed.
End Forward.

(** ** the score in terms of roots and slacks *)
Definition is_root (v : nat) : bool := match par v with None => true | Some _ => false end.

Definition lscore (y : nat -> nat) : Qc := score n edges (mget U) (fun e => get2 (nth e pws [])) y.

Lemma traversal_perm : Permutation (st_traversal st) (seq 0 n).
Proof.
  apply NoDup_Permutation; [apply (d_nodup _ _ _ D)|apply seq_NoDup|].
  intro v. rewrite in_seq. split; intro H; [split; [lia|]; apply (d_lt _ _ _ D); exact H|apply All; lia].
Qed.
Lemma sumn_traversal f : sumn n f = lsum (map f (st_traversal st)).
Proof.
  rewrite (lsum_perm _ _ (Permutation_map f traversal_perm)).
  rewrite <- (lsum_tab1 n f). reflexivity.
Qed.

(** sum over edges = sum over children *)
Definition childW (y : nat -> nat) (v : nat) : Qc :=
  match par v with Some (p, q) => W q (y p) (y v) | None => 0 end.

Lemma edges_children y : sumn (length edges) (fun e => get2 (nth e pws []) (y (fst (nth e edges (0, 0)%nat)))
     (y (snd (nth e edges (0, 0)%nat)))) = lsum (map (childW y) (st_traversal st)).
Proof.
  rewrite <- sumn_traversal.
  set (val := fun e => get2 (nth e pws []) (y (fst (nth e edges (0, 0)%nat))) (y (snd (nth e edges (0, 0)%nat)))).
  set (hit := fun v e => match par v with Some (_, (e', _)) => (e' =? e)%nat | None => false end).
  (* childW y v = sum over e of [hit v e] val e;  val e = sum over v of [hit v e] val e *)
  assert (E1 : forall v, (v < n)%nat -> childW y v = sumn (length edges) (fun e => ind (hit v e) * val e)).
  { intros v Hv. unfold childW, hit. destruct (par v) as [[p [e o]]|] eqn:Ep.
    - assert (He := child_edge n edges st D _ _ _ _ Ep).
      assert (Hlt : (e < length edges)%nat) by (apply nth_error_Some; congruence).
      rewrite (sumn_ext _ _ (fun i => ind (i =? e)%nat * val i)) by (intros i Hi; rewrite (Nat.eqb_sym e i); reflexivity).
      rewrite sumn_pick by exact Hlt. unfold val, W, entry_pw.
      assert (En : nth e edges (0, 0)%nat = (if o then (v, p) else (p, v))) by (apply nth_error_nth; exact He).
      rewrite En. destruct o; reflexivity.
    - symmetry. apply sumn_zero. intros; unfold ind; ring. }
  rewrite (sumn_ext n (childW y) (fun v => sumn (length edges) (fun e => ind (hit v e) * val e))) by exact E1.
  rewrite sumn_swap. apply sumn_ext. intros e He.
  rewrite sumn_mult_r.
  enough (sumn n (fun v => ind (hit v e)) = 1) as -> by ring.
  destruct (nth e edges (0, 0)%nat) as [a b] eqn:Eab.
  assert (Hn' : nth_error edges e = Some (a, b)) by (rewrite <- Eab; apply nth_error_nth'; exact He).
  assert (Hc : exists c p o, par c = Some (p, (e, o))).
  { destruct (edge_child n edges Hg st D All _ _ _ Hn') as [K|K]; eauto. }
  destruct Hc as [c [p [o Hc]]].
  assert (Hcn : (c < n)%nat) by (apply (d_lt _ _ _ D), (d_parent _ _ _ D _ _ _ Hc)).
  rewrite (sumn_ext n _ (fun v => ind (v =? c)%nat * 1)).
  - rewrite sumn_pick by exact Hcn. reflexivity.
  - intros v Hv. unfold hit. destruct (par v) as [[p' [e' o']]|] eqn:Ep.
    + destruct (Nat.eqb_spec e' e) as [->|].
      * destruct (child_unique n edges st D _ _ _ _ _ _ _ Ep Hc) as [-> _]. rewrite Nat.eqb_refl. unfold ind. ring.
      * destruct (Nat.eqb_spec v c) as [->|]; [congruence|]. unfold ind. ring.
    + destruct (Nat.eqb_spec v c) as [->|]; [congruence|]. unfold ind. ring.
Qed.

(** choose labels along the traversal, parents first *)
Lemma choose_labels (R : nat -> option nat -> nat -> Prop) :
  (forall v, In v (st_traversal st) -> par v = None -> exists t, (t < k)%nat /\ R v None t) ->
  (forall v s p q, In v (st_traversal st) -> par v = Some (p, q) -> (s < k)%nat -> exists t, (t < k)%nat /\ R v (Some s) t) ->
  exists y, (forall v, (y v < k)%nat) /\
    forall v, In v (st_traversal st) -> R v (match par v with Some (p, _) => Some (y p) | None => None end) (y v).
Proof.
  intros H1 H2.
  enough (G : forall l pre, st_traversal st = pre ++ l ->
     exists y, (forall v, (y v < k)%nat) /\
       forall v, In v l -> R v (match par v with Some (p, _) => Some (y p) | None => None end) (y v)).
  { apply (G (st_traversal st) []). reflexivity. }
  induction l as [|v l IH]; intros pre E.
  - exists (fun _ => O). split; auto. intros ? [].
  - destruct (IH (pre ++ [v])) as [y [Hy1 Hy2]]; [rewrite <- app_assoc; exact E|].
    assert (Hin : In v (st_traversal st)) by (rewrite E; apply in_elt).
    assert (Ht : exists t, (t < k)%nat /\ R v (match par v with Some (p, _) => Some (y p) | None => None end) t).
    { destruct (par v) as [[p q]|] eqn:Ep; eauto. }
    destruct Ht as [t [Ht HR]]. exists (upd y v t). split.
    + intro u. unfold upd. destruct (u =? v)%nat; auto.
    + assert (Hdup := d_nodup _ _ _ D). rewrite E in Hdup.
      assert (Hvl : ~ In v l) by (intro H; apply NoDup_remove_2 in Hdup; apply Hdup, in_or_app; auto).
      intros u [<-|Hu].
      * rewrite upd_eq. destruct (par v) as [[p q]|] eqn:Ep; auto.
        rewrite upd_neq; auto. intros ->. assert (In v l) by (eapply (d_order _ _ _ D); eauto). contradiction.
      * assert (u <> v) by (intros ->; contradiction). rewrite upd_neq by assumption.
        specialize (Hy2 u Hu). destruct (par u) as [[p q]|] eqn:Ep; auto. rewrite upd_neq; auto.
        intros ->. apply in_split in Hu. destruct Hu as [l1 [l2 ->]].
        assert (E' : st_traversal st = (pre ++ v :: l1) ++ u :: l2) by (rewrite <- app_assoc; exact E).
        assert (In v l2) by (eapply (d_order _ _ _ D); eauto). apply Hvl, in_or_app. simpl. auto.
Qed.

Lemma exists_max (f : nat -> Qc) : exists t, (t < k)%nat /\ forall s, (s < k)%nat -> f s <= f t.
Proof.
  destruct (np_argmax_ok (tab1 k f)) as [t Et]; [rewrite tab1_length; exact Hk|].
  destruct (np_argmax_spec _ _ Et) as [H1 [H2 _]]. rewrite tab1_length in *. exists t. split; auto.
  intros s Hs. specialize (H2 s Hs). rewrite !get1_tab1 in H2 by assumption. exact H2.
Qed.

Section Decode.
Variables (mb M mf : nat -> list Qc) (N : nat -> Qc).
Hypothesis HLmb : forall v, length (mb v) = k.
Hypothesis Hmb : forall v s, (s < k)%nat -> get1 (mb v) s = children_sum (st_traversal st) (fun c => get1 (M c) s - N c) v.
Hypothesis HM : forall c p q, par c = Some (p, q) ->
     length (M c) = k /\ forall s, (s < k)%nat ->
       (forall t, (t < k)%nat -> get1 (mb c) t + mget U c t + W q s t <= get1 (M c) s) /\
       exists t, (t < k)%nat /\ get1 (M c) s = get1 (mb c) t + mget U c t + W q s t.
Hypothesis Hroot : forall v s, par v = None -> (s < k)%nat -> get1 (mf v) s = 0.
Hypothesis Hf : forall c p q, In c (st_traversal st) -> par c = Some (p, q) ->
     exists kc, forall t, (t < k)%nat ->
       (forall s, (s < k)%nat -> belief mb mf p s + slack mb M c s t <= belief mb mf c t + kc) /\
       exists s, (s < k)%nat /\ belief mb mf p s + slack mb M c s t = belief mb mf c t + kc.

Definition term (y : nat -> nat) (v : nat) : Qc :=
  match par v with
  | Some (p, _) => slack mb M v (y p) (y v)
  | None => mget U v (y v) + get1 (mb v) (y v)
  end.
Definition nconst (v : nat) : Qc := match par v with Some _ => N v | None => 0 end.

Lemma score_terms y : (forall v, (y v < k)%nat) ->
  lscore y = lsum (map (term y) (st_traversal st)) + lsum (map nconst (st_traversal st)).
Proof.
  intro Hy. unfold lscore, score. rewrite edges_children, sumn_traversal.
  set (T := st_traversal st).
  assert (E : lsum (map (fun v => get1 (mb v) (y v)) T) =
              lsum (map (fun c => match par c with Some (p, _) => get1 (M c) (y p) - N c | None => 0 end) T)).
  { transitivity (lsum (map (fun v => lsum (map (fun c => match par c with
        Some (u, _) => if (u =? v)%nat then get1 (M c) (y v) - N c else 0 | None => 0 end) T)) T)).
    { apply f_equal, map_ext. intro v. rewrite (Hmb v (y v) (Hy v)). reflexivity. }
    rewrite lsum_swap2. apply f_equal, map_ext_in. intros c Hc. destruct (par c) as [[p q]|] eqn:Ep.
    - transitivity (lsum (map (fun v => if (v =? p)%nat then get1 (M c) (y p) - N c else 0) T)).
      { apply f_equal, map_ext. intro v. rewrite (Nat.eqb_sym p v). destruct (Nat.eqb_spec v p) as [->|]; reflexivity. }
      unfold T. rewrite <- (sumn_traversal (fun v => if (v =? p)%nat then get1 (M c) (y p) - N c else 0)).
      rewrite (sumn_ext n _ (fun v => ind (v =? p)%nat * (get1 (M c) (y p) - N c)))
        by (intros v _; unfold ind; destruct (v =? p)%nat; ring).
      rewrite sumn_pick; [reflexivity|]. apply (d_lt _ _ _ D), (d_parent _ _ _ D _ _ _ Ep).
    - clear. induction T; simpl; auto. rewrite IHT. ring. }
  assert (L : forall a b c d : nat -> Qc, (forall v, In v T -> a v + b v + c v = term y v + nconst v + d v) ->
     lsum (map a T) + lsum (map b T) + lsum (map c T) = lsum (map (term y) T) + lsum (map nconst T) + lsum (map d T)).
  { intros a b c d H. rewrite <- !lsum_map_plus. apply f_equal, map_ext_in. exact H. }
  assert (Q := L (fun v => mget U v (y v)) (childW y) (fun v => get1 (mb v) (y v))
    (fun c => match par c with Some (p, _) => get1 (M c) (y p) - N c | None => 0 end)).
  rewrite E in Q.
  assert (Q' : lsum (map (fun v => mget U v (y v)) T) + lsum (map (childW y) T) =
     lsum (map (term y) T) + lsum (map nconst T)).
  { assert (P : forall a b c d : Qc, a + b + c = d + c -> a + b = d) by (intros; qclra).
    eapply P. apply Q. intros v Hv. unfold term, nconst, childW, slack. destruct (par v) as [[p q]|]; ring. }
  exact Q'.
Qed.

Definition good (y : nat -> nat) : Prop :=
  (forall v, (y v < k)%nat) /\
  forall v, In v (st_traversal st) ->
    match par v with
    | Some (p, _) => slack mb M v (y p) (y v) = 0
    | None => forall s, (s < k)%nat -> mget U v s + get1 (mb v) s <= mget U v (y v) + get1 (mb v) (y v)
    end.

Lemma good_best y y' : good y -> (forall v, (y' v < k)%nat) -> lscore y' <= lscore y.
Proof.
  intros [G1 G2] Hy'. rewrite !score_terms by assumption.
  enough (lsum (map (term y') (st_traversal st)) <= lsum (map (term y) (st_traversal st))) by qclra.
  apply lsum_map_le. intros v Hv. specialize (G2 v Hv). unfold term. destruct (par v) as [[p q]|] eqn:Ep.
  - rewrite G2. eapply slack_nonpos; eauto.
  - apply G2, Hy'.
Qed.

Lemma good_through : forall l pre, st_traversal st = pre ++ l -> forall v t, In v l -> (t < k)%nat ->
  (forall s, (s < k)%nat -> belief mb mf v s <= belief mb mf v t) ->
  exists y, good y /\ y v = t.
Proof.
  induction l as [|c l IH]; intros pre E v t Hv Ht Hmax; [destruct Hv|].
  destruct Hv as [<-|Hv].
  2: { apply (IH (pre ++ [c])) with (v := v) (t := t); auto. rewrite <- app_assoc. exact E. }
  assert (Hin : In c (st_traversal st)) by (rewrite E; apply in_elt).
  destruct (par c) as [[p q]|] eqn:Ep.
  - (* child *)
    assert (Hp : In p l) by (eapply (d_order _ _ _ D); eauto).
    destruct (Hf c p q Hin Ep) as [kc Hkc].
    destruct (Hkc t Ht) as [A [s [Hs B]]].
    assert (Hsl := slack_nonpos mb M HM c p q s t Ep Hs Ht).
    assert (Hbest : forall s', (s' < k)%nat -> belief mb mf p s' <= belief mb mf p s + slack mb M c s t).
    { intros s' Hs'. destruct (slack_attained mb M HM c p q s' Ep Hs') as [t' [Ht' Et']].
      destruct (Hkc t' Ht') as [A' _]. specialize (A' s' Hs'). rewrite Et' in A'. specialize (Hmax t' Ht').
      rewrite B. qclra. }
    assert (Hz : slack mb M c s t = 0) by (specialize (Hbest s Hs); apply Qcle_antisym; [exact Hsl|qclra]).
    destruct (IH (pre ++ [c])) with (v := p) (t := s) as [y' [[G1 G2] Ey']]; auto.
    { rewrite <- app_assoc. exact E. }
    { intros s' Hs'. specialize (Hbest s' Hs'). rewrite Hz in Hbest. qclra. }
    set (R := fun u (os : option nat) t' => match os with
       | None => t' = y' u
       | Some s1 => if (u =? c)%nat then t' = t
                    else if (match par u with Some (p', _) => (s1 =? y' p')%nat | None => false end) then t' = y' u
                         else slack mb M u s1 t' = 0 end).
    destruct (choose_labels R) as [y [Y1 Y2]].
    { intros u _ _. exists (y' u). split; [apply G1|reflexivity]. }
    { intros u s1 p1 q1 Hu Eu Hs1. unfold R. destruct (u =? c)%nat; [exists t; auto|].
      destruct (match par u with Some (p', _) => (s1 =? y' p')%nat | None => false end); [exists (y' u); auto|].
      eapply slack_attained; eauto. }
    assert (Same : forall l' pre', st_traversal st = pre' ++ c :: l -> forall d, l = d ++ l' -> forall u, In u l' -> y u = y' u).
    { induction l' as [|w l' IH']; intros pre' E' d Ed u Hu; [destruct Hu|]. destruct Hu as [<-|Hu].
      2: { apply (IH' pre' E' (d ++ [w])); auto. rewrite <- app_assoc. exact Ed. }
      assert (Hw : In w (st_traversal st)) by (rewrite E', Ed; apply in_or_app; right; right; apply in_elt).
      specialize (Y2 w Hw). unfold R in Y2. destruct (par w) as [[p' q']|] eqn:Ew; [|exact Y2].
      assert (Hp' : In p' l').
      { apply (d_order _ _ _ D (pre' ++ c :: d) w l' p' q'); auto. rewrite E', Ed, <- app_assoc. reflexivity. }
      assert (Epp : y p' = y' p') by (apply (IH' pre' E' (d ++ [w])); auto; rewrite <- app_assoc; exact Ed).
      destruct (Nat.eqb_spec w c) as [->|Nw].
      { exfalso. assert (Q := d_nodup _ _ _ D). rewrite E', Ed in Q. apply NoDup_remove_2 in Q. apply Q.
        apply in_or_app. right. apply in_elt. }
      rewrite Epp, Nat.eqb_refl in Y2. exact Y2. }
    assert (Eyp : y p = s).
    { rewrite <- Ey'. apply (Same l pre E []); auto. }
    exists y. split.
    + split; auto. intros u Hu. specialize (Y2 u Hu). unfold R in Y2. specialize (G2 u Hu).
      destruct (par u) as [[p' q']|] eqn:Eu.
      * destruct (Nat.eqb_spec u c) as [->|Nu].
        { rewrite Ep in Eu. injection Eu as <- <-. rewrite Y2, Eyp. exact Hz. }
        { destruct (Nat.eqb_spec (y p') (y' p')) as [Eq|]; [|exact Y2]. rewrite Y2, Eq. exact G2. }
      * rewrite Y2. exact G2.
    + specialize (Y2 c Hin). unfold R in Y2. rewrite Ep, Nat.eqb_refl in Y2. exact Y2.
  - (* root *)
    assert (HA : forall s, (s < k)%nat -> mget U c s + get1 (mb c) s <= mget U c t + get1 (mb c) t).
    { intros s Hs. specialize (Hmax s Hs). unfold belief in Hmax. rewrite !(Hroot c) in Hmax by assumption. qclra. }
    set (R := fun u (os : option nat) t' => match os with
       | None => (u = c -> t' = t) /\ forall s, (s < k)%nat -> mget U u s + get1 (mb u) s <= mget U u t' + get1 (mb u) t'
       | Some s1 => slack mb M u s1 t' = 0 end).
    destruct (choose_labels R) as [y [Y1 Y2]].
    { intros u _ _. destruct (Nat.eq_dec u c) as [->|Nu].
      - exists t. split; auto. split; auto.
      - destruct (exists_max (fun s => mget U u s + get1 (mb u) s)) as [t' [Ht' Hm']]. exists t'. split; auto.
        split; auto. intros; congruence. }
    { intros u s1 p1 q1 Hu Eu Hs1. eapply slack_attained; eauto. }
    exists y. split.
    + split; auto. intros u Hu. specialize (Y2 u Hu). destruct (par u) as [[p' q']|]; unfold R in Y2; [exact Y2|apply Y2].
    + specialize (Y2 c Hin). rewrite Ep in Y2. apply Y2. reflexivity.
Qed.
End Decode.
End Tree.

(** Every node gets the label it has in some best labelling. *)
Lemma tree_max_product_ok n k U pws edges :
  mrows U = n -> mcols U = k -> (0 < k)%nat -> graph_edges n edges -> acyclic edges ->
  exists y, tree_max_product U pws edges = Ok y /\ labelling n k y /\
    forall v, (v < n)%nat ->
      exists y', maximiser n k edges (mget U) (fun e => get2 (nth e pws [])) y' /\ lab y' v = lab y v.
Proof.
  intros Hr Hc Hk Hg AC. unfold tree_max_product. rewrite Hr, Hc.
  assert (Ef : forallb (fun e => (fst e <? n) && (snd e <? n))%nat edges = true).
  { apply forallb_forall. intros e He. unfold graph_edges in Hg. rewrite Forall_forall in Hg. destruct (Hg e He).
    apply andb_true_intro. split; apply Nat.ltb_lt; assumption. }
  rewrite Ef. cbn [ensure bind].
  destruct (search_ok n edges Hg pop_first pop_first_ok) as [r [E K]]. rewrite E. cbn [bind].
  destruct r as [st|]; [|contradiction]. destruct K as [D All].
  destruct (backward_ok n k U pws edges Hk st D (st_traversal st) [] (fun _ => vzero k) (fun _ => []) (fun _ => 0))
    as [mb [M [N [Eb [HLmb [Hmb HM]]]]]].
  { reflexivity. } { intro; apply vzero_length. }
  { intros v s Hs. rewrite get1_vzero. reflexivity. }
  { intros c p q []. }
  rewrite Eb. cbn [bind].
  assert (HM' : forall c p q, st_parent st c = Some (p, q) ->
     length (M c) = k /\ forall s, (s < k)%nat ->
       (forall t, (t < k)%nat -> get1 (mb c) t + mget U c t + entry_pw pws q s t <= get1 (M c) s) /\
       exists t, (t < k)%nat /\ get1 (M c) s = get1 (mb c) t + mget U c t + entry_pw pws q s t).
  { intros c p q Ec. eapply HM; eauto. apply (d_parent _ _ _ D _ _ _ Ec). }
  destruct (forward_ok n k U pws edges Hk st D mb M HM' (rev (st_traversal st)) [] (fun _ => vzero k))
    as [mf [Ef' [HLmf [Hroot Hf]]]].
  { reflexivity. } { intro; apply vzero_length. }
  { intros v s _ Hs. apply get1_vzero. }
  { intros c p q []. }
  rewrite Ef'. cbn [bind].
  set (dec := fun v => np_argmax (tab1 k (fun s => mget U v s + get1 (mf v) s + get1 (mb v) s))).
  assert (Hdec : forall v, exists t, dec v = Ok t /\ (t < k)%nat /\
     forall s, (s < k)%nat -> belief U mb mf v s <= belief U mb mf v t).
  { intro v. unfold dec. destruct (np_argmax_ok (tab1 k (fun s => mget U v s + get1 (mf v) s + get1 (mb v) s))) as [t Et];
      [rewrite tab1_length; exact Hk|].
    destruct (np_argmax_spec _ _ Et) as [H1 [H2 _]]. rewrite tab1_length in *. exists t. split; auto. split; auto.
    intros s Hs. specialize (H2 s Hs). rewrite !get1_tab1 in H2 by assumption. exact H2. }
  assert (EM : exists y, mapM dec (seq 0 n) = Ok y).
  { generalize (seq 0 n). induction l as [|v l [y Ey]]; simpl; eauto.
    destruct (Hdec v) as [t [Et _]]. rewrite Et, Ey. simpl. eauto. }
  destruct EM as [y EM]. exists y. split; [exact EM|].
  assert (HLy := mapM_length _ _ _ EM). rewrite seq_length in HLy.
  assert (Hy : forall v, (v < n)%nat -> dec v = Ok (lab y v)).
  { intros v Hv. assert (Q := mapM_nth _ _ _ v O O EM). rewrite seq_length in Q. specialize (Q Hv).
    rewrite seq_nth in Q by exact Hv. exact Q. }
  split.
  - split; auto. apply Forall_forall. intros s Hs. apply (In_nth _ _ O) in Hs. destruct Hs as [v [Hv <-]].
    rewrite HLy in Hv. specialize (Hy v Hv). destruct (Hdec v) as [t [Et [Ht _]]]. rewrite Hy in Et.
    injection Et as Et. unfold lab in Et. rewrite Et. exact Ht.
  - intros v Hv. destruct (Hdec v) as [t [Et [Ht Hm]]]. rewrite (Hy v Hv) in Et. injection Et as Et. rewrite Et.
    destruct (good_through n k U pws edges Hk st D mb M mf HM' Hroot Hf (st_traversal st) [] eq_refl v t (All v Hv) Ht Hm)
      as [z [Gz Ez]].
    assert (Elab : forall i, (i < n)%nat -> lab (map z (seq 0 n)) i = z i).
    { intros i Hi. unfold lab. apply nth_map_seq. exact Hi. }
    exists (map z (seq 0 n)). split; [|rewrite Elab by exact Hv; exact Ez].
    split.
    + split; [rewrite map_length, seq_length; reflexivity|]. apply Forall_forall. intros s Hs. apply in_map_iff in Hs.
      destruct Hs as [i [<- _]]. apply Gz.
    + intros y' Hy'.
      (* outside the nodes the labels do not matter *)
      assert (SE : forall a b, (forall i, (i < n)%nat -> a i = b i) ->
         score n edges (mget U) (fun e => get2 (nth e pws [])) a = score n edges (mget U) (fun e => get2 (nth e pws [])) b).
      { intros a b Hab. unfold score. f_equal; apply sumn_ext.
        - intros i Hi. rewrite Hab by exact Hi. reflexivity.
        - intros e He. destruct (graph_edges_nth _ _ e Hg He). rewrite !Hab by assumption. reflexivity. }
      rewrite (SE (lab (map z (seq 0 n))) z) by exact Elab.
      assert (B := good_best n k U pws edges Hk Hg st D All mb M N Hmb HM' z (fun i => lab y' i) Gz).
      apply B. intro i. destruct (Nat.lt_ge_cases i n) as [Hi|Hi].
      * eapply labelling_lt; eauto.
      * unfold lab. rewrite nth_overflow by (destruct Hy' as [-> _]; exact Hi). exact Hk.
Qed.

(** ** chains *)
Lemma all_eq_arange_chain n : all_eq_arange (map fst (chain_edges n)) 0 (n - 1) = true /\
  all_eq_arange (map snd (chain_edges n)) 1 (n - 1) = true.
Proof.
  unfold all_eq_arange. rewrite !map_length, chain_edges_length, Nat.eqb_refl.
  unfold chain_edges. rewrite !map_map. simpl. rewrite map_id.
  assert (F : forall s m, forallb (fun p => fst p =? snd p)%nat (combine (seq s m) (seq s m)) = true).
  { intros s m. revert s. induction m; simpl; auto. intro s. rewrite Nat.eqb_refl. apply IHm. }
  split; [apply F|]. rewrite seq_shift. apply F.
Qed.
Lemma is_chain_chain n : is_chain (chain_edges n) n = true.
Proof. unfold is_chain. destruct (all_eq_arange_chain n) as [-> ->]. reflexivity. Qed.

Lemma is_chain_length edges n : length edges = (n - 1)%nat -> is_chain edges n = true -> edges = chain_edges n.
Proof.
  intros HL H. unfold is_chain, all_eq_arange in H. rewrite !map_length, HL, Nat.eqb_refl in H.
  apply andb_prop in H. destruct H as [H1 H2].
  assert (E : forall (l l' : list nat), length l = length l' -> forallb (fun p => fst p =? snd p)%nat (combine l l') = true -> l = l').
  { induction l as [|a l IH]; intros [|b l'] Hl Hf; simpl in *; try discriminate; auto.
    apply andb_prop in Hf. destruct Hf as [Hf1 Hf2]. apply Nat.eqb_eq in Hf1. f_equal; auto. }
  apply E in H1; [|rewrite map_length, seq_length; exact HL].
  apply E in H2; [|rewrite map_length, seq_length; exact HL].
  apply (nth_ext _ _ (0, 0)%nat (0, 0)%nat); [rewrite chain_edges_length; exact HL|].
  intros i Hi. rewrite HL in Hi. rewrite chain_edges_nth by exact Hi.
  assert (A : fst (nth i edges (0, 0)%nat) = i).
  { rewrite <- (nth_map_in fst edges i (0, 0)%nat O) by lia. rewrite H1, seq_nth by exact Hi. reflexivity. }
  assert (B : snd (nth i edges (0, 0)%nat) = S i).
  { rewrite <- (nth_map_in snd edges i (0, 0)%nat O) by lia. rewrite H2, seq_nth by exact Hi. reflexivity. }
  destruct (nth i edges (0, 0)%nat); simpl in *; subst; reflexivity.
Qed.

(** ** the whole method *)
Lemma validate_ok U p (edges : list (nat * nat)) k : mcols U = k ->
  match p with
  | Pw2 m => mrows m = k /\ mcols m = k
  | Pw3 n0 n1 n2 d => n0 = length edges /\ n1 = k /\ n2 = k /\ length d = n0
  end ->
  exists pws, validate_params U p (length edges) = Ok (k, pws) /\ length pws = length edges /\
    forall e, (e < length edges)%nat -> nth e pws [] = match p with Pw2 m => mdat m | Pw3 _ _ _ d => nth e d [] end.
Proof.
  intros Hc Hp. unfold validate_params. rewrite Hc. destruct p as [m|n0 n1 n2 d].
  - destruct Hp as [-> ->]. rewrite Nat.eqb_refl. simpl. eexists. split; [reflexivity|].
    rewrite repeat_length. split; auto. intros e He.
    assert (In (nth e (repeat (mdat m) (length edges)) []) (repeat (mdat m) (length edges))).
    { apply nth_In. rewrite repeat_length. exact He. }
    eapply repeat_spec; eauto.
  - destruct Hp as [-> [-> [-> HL]]]. rewrite !Nat.eqb_refl. simpl. eexists. split; [reflexivity|]. split; auto.
Qed.

Lemma score_table n edges U pws p y :
  (forall e, (e < length edges)%nat -> nth e pws [] = match p with Pw2 m => mdat m | Pw3 _ _ _ d => nth e d [] end) ->
  score n edges U (fun e => get2 (nth e pws [])) y = score n edges U (pw_table p) y.
Proof.
  intro H. unfold score. f_equal. apply sumn_ext. intros e He. rewrite (H e He). destruct p; reflexivity.
Qed.
Lemma maximiser_table n k edges U pws p y :
  (forall e, (e < length edges)%nat -> nth e pws [] = match p with Pw2 m => mdat m | Pw3 _ _ _ d => nth e d [] end) ->
  maximiser n k edges U (fun e => get2 (nth e pws [])) y -> maximiser n k edges U (pw_table p) y.
Proof.
  intros H [H1 H2]. split; auto. intros y' Hy'. rewrite <- !(score_table n edges U pws p) by exact H. auto.
Qed.

Lemma max_product_chain n k U p max_iter damping tol :
  mat_ok U -> mrows U = n -> mcols U = k -> (0 < n)%nat -> (0 < k)%nat -> pw_shape p (n - 1) k ->
  exists y, inference_max_product U p (chain_edges n) max_iter damping tol = Ok y /\
    maximiser n k (chain_edges n) (mget U) (pw_table p) y.
Proof.
  intros HU Hr Hc Hn Hk Hp. unfold inference_max_product.
  destruct (validate_ok U p (chain_edges n) k Hc) as [pws [E [HL HT]]].
  { rewrite chain_edges_length. destruct p; exact Hp. }
  rewrite E. cbn [bind snd]. rewrite Hr, is_chain_chain.
  destruct (viterbi_exact U pws n k HU Hr Hc Hn Hk) as [y [Ey Hy]]; [rewrite HL, chain_edges_length; reflexivity|].
  exists y. split; auto. eapply maximiser_table; eauto.
Qed.

Lemma max_product_forest n k U p edges max_iter damping tol :
  mrows U = n -> mcols U = k -> (0 < k)%nat -> pw_shape p (length edges) k ->
  graph_edges n edges -> acyclic edges -> edges <> [] -> is_chain edges n = false ->
  exists y, inference_max_product U p edges max_iter damping tol = Ok y /\ labelling n k y /\
    forall v, (v < n)%nat -> exists y', maximiser n k edges (mget U) (pw_table p) y' /\ lab y' v = lab y v.
Proof.
  intros Hr Hc Hk Hp Hg AC Hne Hch. unfold inference_max_product.
  destruct (validate_ok U p edges k Hc) as [pws [E [HL HT]]]; [destruct p; exact Hp|].
  rewrite E. cbn [bind snd]. rewrite Hr, Hch.
  destruct (is_forest_correct edges (Some n) Hne Hg) as [b [Eb Hb]]. rewrite Eb. cbn [bind].
  apply Hb in AC as Hbt. rewrite Hbt.
  destruct (tree_max_product_ok n k U pws edges Hr Hc Hk Hg AC) as [y [Ey [Hl Hm]]].
  exists y. split; auto. split; auto. intros v Hv. destruct (Hm v Hv) as [y' [H1 H2]]. exists y'. split; auto.
  eapply maximiser_table; eauto.
Qed.

Lemma unique_from_marginals n k edges U P y ys :
  labelling n k y ->
  (forall v, (v < n)%nat -> exists y', maximiser n k edges U P y' /\ lab y' v = lab y v) ->
  maximiser n k edges U P ys -> (forall z, maximiser n k edges U P z -> z = ys) -> y = ys.
Proof.
  intros [HL HF] Hm [[HLs HFs] Hs] Hu. apply (nth_ext _ _ O O); [congruence|].
  intros v Hv. rewrite HL in Hv. destruct (Hm v Hv) as [y' [H1 H2]]. apply Hu in H1. subst y'. symmetry. exact H2.
Qed.

(** ** loopy message passing *)
Record loopy_inv (k : nat) (edges : list (nat * nat)) (st : loopy) : Prop := {
  lv_fwd : forall e, length (lp_fwd st e) = k;
  lv_bwd : forall e, length (lp_bwd st e) = k;
  lv_in : forall v, length (lp_in st v) = k;
  lv_sum : forall v s, (s < k)%nat -> get1 (lp_in st v) s = edge_terms edges (lp_fwd st) (lp_bwd st) v s }.

Lemma damp_length k d a b : length a = k -> length b = k -> length (damp d a b) = k.
Proof. intros H1 H2. unfold damp. rewrite vadd_length; rewrite !vscale_length; congruence. Qed.

Lemma edge_terms_upd edges fwd bwd e f0 b0 v s : (e < length edges)%nat ->
  edge_terms edges (upd fwd e f0) (upd bwd e b0) v s =
  edge_terms edges fwd bwd v s +
  (ind (snd (nth e edges (0, 0)%nat) =? v)%nat * (get1 f0 s - get1 (fwd e) s) +
   ind (fst (nth e edges (0, 0)%nat) =? v)%nat * (get1 b0 s - get1 (bwd e) s)).
Proof.
  intro He. unfold edge_terms.
  rewrite <- (sumn_pick (length edges) e (fun e => ind (snd (nth e edges (0, 0)%nat) =? v)%nat * (get1 f0 s - get1 (fwd e) s) +
   ind (fst (nth e edges (0, 0)%nat) =? v)%nat * (get1 b0 s - get1 (bwd e) s))) by exact He.
  rewrite <- sumn_plus. apply sumn_ext. intros i Hi. unfold upd.
  destruct (Nat.eqb_spec i e) as [->|]; unfold ind; ring.
Qed.

Lemma loopy_edge_ok k U damping e edges pw st : (0 < k)%nat -> (e < length edges)%nat -> loopy_inv k edges st ->
  exists st', loopy_edge k U damping e (fst (nth e edges (0, 0)%nat)) (snd (nth e edges (0, 0)%nat)) pw st = Ok st' /\
    loopy_inv k edges st'.
Proof.
  intros Hk He [H1 H2 H3 H4]. unfold loopy_edge.
  set (a := fst (nth e edges (0, 0)%nat)). set (b := snd (nth e edges (0, 0)%nat)).
  match goal with |- context [max_rows k k ?f] => destruct (max_rows_ok k k f Hk) as [m0 [E0 [L0 _]]] end.
  rewrite E0. cbn [bind]. destruct (np_max_ok m0) as [x0 F0]; [lia|]. rewrite F0. cbn [bind].
  set (new0 := damp damping (lp_fwd st e) (sub_max m0 x0)).
  assert (Ln0 : length new0 = k) by (apply damp_length; rewrite ?sub_max_length; auto).
  match goal with |- context [max_rows k k ?f] => destruct (max_rows_ok k k f Hk) as [m1 [E1 [L1 _]]] end.
  rewrite E1. cbn [bind]. destruct (np_max_ok (lp_bwd st e)) as [x1 F1]; [rewrite H2; lia|]. rewrite F1. cbn [bind].
  set (new1 := damp damping (lp_bwd st e) (sub_max m1 x1)).
  assert (Ln1 : length new1 = k) by (apply damp_length; rewrite ?sub_max_length; auto).
  eexists. split; [reflexivity|].
  assert (Lu0 : length (vsub new0 (lp_fwd st e)) = k) by (rewrite vsub_length; congruence).
  assert (Lu1 : length (vsub new1 (lp_bwd st e)) = k) by (rewrite vsub_length; congruence).
  set (in1 := upd (lp_in st) b (vadd (lp_in st b) (vsub new0 (lp_fwd st e)))).
  assert (Lin1 : forall v, length (in1 v) = k).
  { intro v. unfold in1, upd. destruct (v =? b)%nat; auto. rewrite vadd_length; auto. rewrite H3. congruence. }
  constructor; simpl.
  - intro i. unfold upd. destruct (i =? e)%nat; auto.
  - intro i. unfold upd. destruct (i =? e)%nat; auto.
  - intro v. unfold upd. destruct (v =? a)%nat; auto. rewrite vadd_length; auto. rewrite Lin1. congruence.
  - intros v s Hs. rewrite edge_terms_upd by exact He. fold a b. rewrite <- H4 by exact Hs.
    assert (I1 : get1 (in1 v) s = get1 (lp_in st v) s + ind (b =? v)%nat * (get1 new0 s - get1 (lp_fwd st e) s)).
    { unfold in1, upd. rewrite (Nat.eqb_sym v b). destruct (Nat.eqb_spec b v) as [<-|].
      - rewrite get1_vadd by (rewrite H3; congruence). rewrite get1_vsub by congruence. unfold ind. ring.
      - unfold ind. ring. }
    unfold upd. rewrite (Nat.eqb_sym v a). destruct (Nat.eqb_spec a v) as [<-|].
    + rewrite get1_vadd by (rewrite Lin1; congruence). rewrite get1_vsub by congruence. rewrite I1. unfold ind. ring.
    + rewrite I1. unfold ind. ring.
Qed.

Lemma firstn_app_S {A} (p : list A) x es : firstn (S (length p)) (p ++ x :: es) = p ++ [x].
Proof. induction p; simpl; f_equal; auto. Qed.

Lemma loopy_edges_ok k U damping edges : (0 < k)%nat -> forall es ps e st,
  edges = firstn e edges ++ es -> length (firstn e edges) = e -> loopy_inv k edges st ->
  exists st', loopy_edges k U damping e es ps st = Ok st' /\ loopy_inv k edges st'.
Proof.
  intro Hk. induction es as [|[a b] es IH]; intros ps e st E L I; simpl; eauto.
  destruct ps as [|pw ps]; eauto.
  assert (En : nth e edges (0, 0)%nat = (a, b)).
  { rewrite E, app_nth2 by lia. rewrite L, Nat.sub_diag. reflexivity. }
  assert (He : (e < length edges)%nat) by (rewrite E, app_length; simpl; lia).
  destruct (loopy_edge_ok k U damping e edges pw st Hk He I) as [st' [E1 I1]]. rewrite En in E1. simpl in E1.
  rewrite E1. cbn [bind].
  assert (EF : firstn (S e) edges = firstn e edges ++ [(a, b)]).
  { transitivity (firstn (S e) (firstn e edges ++ (a, b) :: es)); [f_equal; exact E|].
    assert (Q := firstn_app_S (firstn e edges) (a, b) es). rewrite L in Q. exact Q. }
  apply IH; auto.
  - rewrite EF, <- app_assoc. exact E.
  - rewrite EF, app_length, L. simpl. lia.
Qed.

Lemma loopy_inv_diff k edges st d : loopy_inv k edges st -> loopy_inv k edges (Loopy (lp_fwd st) (lp_bwd st) (lp_in st) d).
Proof. intros [H1 H2 H3 H4]. constructor; auto. Qed.

Lemma loopy_iter_ok k U damping tol edges pws : (0 < k)%nat -> forall m st,
  loopy_inv k edges st -> exists st', loopy_iter m k U damping tol edges pws st = Ok st' /\ loopy_inv k edges st'.
Proof.
  intro Hk. induction m; intros st I; simpl; eauto.
  destruct (loopy_edges_ok k U damping edges Hk edges pws 0 (Loopy (lp_fwd st) (lp_bwd st) (lp_in st) 0)) as [st' [E I']]; auto.
  { apply loopy_inv_diff, I. }
  rewrite E. cbn [bind]. destruct (Qcltb (lp_diff st') tol); eauto.
Qed.

Lemma loopy_init k edges : loopy_inv k edges (Loopy (fun _ => vzero k) (fun _ => vzero k) (fun _ => vzero k) 0).
Proof.
  constructor; simpl; intros; try apply vzero_length. rewrite get1_vzero. unfold edge_terms. symmetry.
  apply sumn_zero. intros. rewrite !get1_vzero. ring.
Qed.

Lemma iterative_ok U pws edges n k max_iter damping tol :
  mrows U = n -> mcols U = k -> (0 < k)%nat -> graph_edges n edges ->
  exists st y,
    loopy_iter max_iter k U damping tol edges pws (Loopy (fun _ => vzero k) (fun _ => vzero k) (fun _ => vzero k) 0) = Ok st /\
    loopy_inv k edges st /\
    iterative_max_product U pws edges max_iter damping tol = Ok y /\ labelling n k y /\
    forall v s, (v < n)%nat -> (s < k)%nat ->
      edge_terms edges (lp_fwd st) (lp_bwd st) v s + mget U v s <=
      edge_terms edges (lp_fwd st) (lp_bwd st) v (lab y v) + mget U v (lab y v).
Proof.
  intros Hr Hc Hk Hg. unfold iterative_max_product. rewrite Hr, Hc.
  assert (Ef : forallb (fun e => (fst e <? n) && (snd e <? n))%nat edges = true).
  { apply forallb_forall. intros e He. unfold graph_edges in Hg. rewrite Forall_forall in Hg. destruct (Hg e He).
    apply andb_true_intro. split; apply Nat.ltb_lt; assumption. }
  rewrite Ef, orb_true_r. cbn [ensure bind].
  destruct (loopy_iter_ok k U damping tol edges pws Hk max_iter _ (loopy_init k edges)) as [st [E I]]. rewrite E. cbn [bind].
  set (dec := fun v => np_argmax (tab1 k (fun s => get1 (lp_in st v) s + mget U v s))).
  assert (Hdec : forall v, exists t, dec v = Ok t /\ (t < k)%nat /\
     forall s, (s < k)%nat -> get1 (lp_in st v) s + mget U v s <= get1 (lp_in st v) t + mget U v t).
  { intro v. unfold dec. destruct (np_argmax_ok (tab1 k (fun s => get1 (lp_in st v) s + mget U v s))) as [t Et];
      [rewrite tab1_length; exact Hk|].
    destruct (np_argmax_spec _ _ Et) as [H1 [H2 _]]. rewrite tab1_length in *. exists t. split; auto. split; auto.
    intros s Hs. specialize (H2 s Hs). rewrite !get1_tab1 in H2 by assumption. exact H2. }
  assert (EM : exists y, mapM dec (seq 0 n) = Ok y).
  { generalize (seq 0 n). induction l as [|v l [y Ey]]; simpl; eauto.
    destruct (Hdec v) as [t [Et _]]. rewrite Et, Ey. simpl. eauto. }
  destruct EM as [y EM]. exists st, y. split; [reflexivity|]. split; [exact I|]. split; [exact EM|].
  assert (HLy := mapM_length _ _ _ EM). rewrite seq_length in HLy.
  assert (Hy : forall v, (v < n)%nat -> dec v = Ok (lab y v)).
  { intros v Hv. assert (Q := mapM_nth _ _ _ v O O EM). rewrite seq_length in Q. specialize (Q Hv).
    rewrite seq_nth in Q by exact Hv. exact Q. }
  split.
  - split; auto. apply Forall_forall. intros s Hs. apply (In_nth _ _ O) in Hs. destruct Hs as [v [Hv <-]].
    rewrite HLy in Hv. specialize (Hy v Hv). destruct (Hdec v) as [t [Et [Ht _]]]. rewrite Hy in Et.
    injection Et as Et. unfold lab in Et. rewrite Et. exact Ht.
  - intros v s Hv Hs. destruct (Hdec v) as [t [Et [Ht Hm]]]. rewrite (Hy v Hv) in Et. injection Et as Et. rewrite Et.
    rewrite <- !(lv_sum _ _ _ I) by assumption. apply Hm. exact Hs.
Qed.

Lemma max_product_labelling n k U p edges max_iter damping tol :
  mat_ok U -> mrows U = n -> mcols U = k -> (0 < k)%nat -> pw_shape p (length edges) k ->
  graph_edges n edges -> edges <> [] ->
  exists y, inference_max_product U p edges max_iter damping tol = Ok y /\ labelling n k y.
Proof.
  intros HU Hr Hc Hk Hp Hg Hne.
  destruct (is_chain edges n) eqn:Ech.
  - unfold inference_max_product.
    destruct (validate_ok U p edges k Hc) as [pws [E [HL HT]]]; [destruct p; exact Hp|].
    rewrite E. cbn [bind snd]. rewrite Hr, Ech.
    assert (Hn : (0 < n)%nat).
    { destruct edges as [|[a b] ?]; [congruence|]. inversion Hg; subst. simpl in *. lia. }
    (* viterbi reads at most n-1 tables; is_chain guarantees that many *)
    assert (Hlen : (n - 1 <= length edges)%nat).
    { unfold is_chain in Ech. apply andb_prop in Ech. destruct Ech as [C1 _]. unfold all_eq_arange in C1.
      rewrite map_length in C1. destruct (Nat.eqb_spec (length edges) (n - 1)); [lia|].
      destruct (Nat.eqb_spec (n - 1) 1) as [->|]; [destruct edges; [congruence|simpl; lia]|].
      destruct (Nat.eqb_spec (length edges) 1) as [->|]; [|discriminate].
      destruct (n - 1)%nat as [|[|m]]; [lia|lia|]. simpl in C1.
      apply andb_prop in C1. destruct C1 as [C1 C2]. apply Nat.eqb_eq in C1. apply andb_prop in C2. destruct C2 as [C2 _].
      apply Nat.eqb_eq in C2. congruence. }
    assert (V : viterbi U pws = viterbi U (firstn (n - 1) pws)).
    { unfold viterbi. destruct HU as [HL1 HF1]. rewrite Hr in HL1. destruct (mdat U) as [|r0 rows] eqn:EU; [reflexivity|].
      simpl in HL1. assert (F : forall rows pws prev, vit_forward (mcols U) prev rows pws = vit_forward (mcols U) prev rows (firstn (length rows) pws)).
      { induction rows0 as [|r rs IH]; intros pw prev; simpl; auto. destruct pw as [|t pw]; auto. rewrite Hc. 
        destruct (mapM (vit_cell prev r t) (seq 0 k)); auto. cbn [bind]. rewrite <- Hc. rewrite IH. reflexivity. }
      rewrite F. replace (length rows) with (n - 1)%nat by lia. reflexivity. }
    destruct (viterbi_exact U (firstn (n - 1) pws) n k HU Hr Hc Hn Hk) as [y [Ey [Hy _]]].
    { rewrite firstn_length. lia. }
    exists y. rewrite V. auto.
  - destruct (is_forest_correct edges (Some n) Hne Hg) as [b [Eb Hb]]. destruct b.
    + destruct (max_product_forest n k U p edges max_iter damping tol) as [y [Ey [Hl _]]]; auto.
      { apply Hb. reflexivity. } exists y. auto.
    + unfold inference_max_product.
      destruct (validate_ok U p edges k Hc) as [pws [E [HL HT]]]; [destruct p; exact Hp|].
      rewrite E. cbn [bind snd]. rewrite Hr, Ech, Eb. cbn [bind].
      destruct (iterative_ok U pws edges n k max_iter damping default_tol Hr Hc Hk Hg) as [st [y [_ [_ [Ey [Hl _]]]]]].
      exists y. auto.
Qed.
