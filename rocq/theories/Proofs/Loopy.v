(** Decided fixed points of max-product cannot be improved inside regions with at most one cycle
    per component. *)
From Verif Require Import Model.MaxProd Spec.LoopySpec Proofs.Arrays Proofs.EnergyProofs Proofs.MaxProdProofs.

(** ** the best pair of labels on a table *)
Lemma best_one m (g : nat -> Qc) : (0 < m)%nat -> exists s, (s < m)%nat /\ forall s', (s' < m)%nat -> g s' <= g s.
Proof.
  induction m as [|m IH]; intros Hm; [lia|]. destruct m as [|m].
  - exists 0%nat. split; [lia|]. intros s' Hs. replace s' with 0%nat by lia. apply Qcle_refl.
  - destruct IH as [s [Hs M]]; [lia|]. destruct (Qclt_le_dec (g s) (g (S m))) as [L|L].
    + exists (S m). split; [lia|]. intros s' Hs'. destruct (Nat.eq_dec s' (S m)) as [->|]; [apply Qcle_refl|].
      apply Qcle_trans with (g s); [apply M; lia|apply Qclt_le_weak, L].
    + exists s. split; [lia|]. intros s' Hs'. destruct (Nat.eq_dec s' (S m)) as [->|]; [exact L|]. apply M. lia.
Qed.
Lemma best_pair k (f : nat -> nat -> Qc) : (0 < k)%nat ->
  exists s t, (s < k)%nat /\ (t < k)%nat /\ forall s' t', (s' < k)%nat -> (t' < k)%nat -> f s' t' <= f s t.
Proof.
  intro Hk. destruct (best_one (k * k) (fun i => f (i / k)%nat (i mod k)%nat)) as [i [Hi M]]; [nia|].
  exists (i / k)%nat, (i mod k)%nat. split; [apply Nat.div_lt_upper_bound; lia|]. split; [apply Nat.mod_upper_bound; lia|].
  intros s' t' Hs Ht. specialize (M (t' + s' * k)%nat). cbv beta in M.
  rewrite Nat.div_add, Nat.mod_add, (Nat.div_small t' k), (Nat.mod_small t' k) in M by lia. apply M. nia.
Qed.

Section Fixed.
Variables (n k : nat) (edges : list (nat * nat)) (U : nat -> nat -> Qc) (P : nat -> nat -> nat -> Qc).
Variables (fwd bwd : nat -> list Qc) (d : Qc) (y : list nat).
Hypothesis Hk : (0 < k)%nat.
Hypothesis Hg : graph_edges n edges.
Hypothesis Hd : 0 <= d.
Hypothesis HS : forall e, (e < length edges)%nat -> settled k edges U P fwd bwd d e.
Hypothesis HD : decided n k edges U fwd bwd (d + d) y.

Local Notation src e := (fst (nth e edges (0, 0)%nat)).
Local Notation dst e := (snd (nth e edges (0, 0)%nat)).
Local Notation bel := (loopy_belief edges U fwd bwd).
Definition rest (e s t : nat) : Qc := P e s t - get1 (fwd e) t - get1 (bwd e) s.

Lemma ends e : (e < length edges)%nat -> (src e < n)%nat /\ (dst e < n)%nat.
Proof. intro He. unfold graph_edges in Hg. rewrite Forall_forall in Hg. apply Hg. apply nth_In. exact He. Qed.
Lemma lab_lt v : (v < n)%nat -> (lab y v < k)%nat.
Proof. destruct HD as [[L F] _]. intro Hv. rewrite Forall_forall in F. apply F. apply nth_In. lia. Qed.

(** On every edge the labels of [y] are the best pair. *)
Lemma edge_best e s t : (e < length edges)%nat -> (s < k)%nat -> (t < k)%nat ->
  rest e s t + bel (src e) s + bel (dst e) t <= rest e (lab y (src e)) (lab y (dst e)) + bel (src e) (lab y (src e)) + bel (dst e) (lab y (dst e)).
Proof.
  intros He Hs Ht. destruct (ends e He) as [Ha Hb]. destruct (HS e He) as [c0 [c1 [A1 [A2 [B1 B2]]]]].
  set (a := src e) in *. set (b := dst e) in *.
  destruct (best_pair k (fun s t => rest e s t + bel a s + bel b t) Hk) as [s' [t' [Hs' [Ht' M]]]].
  destruct HD as [_ G].
  assert (Et : t' = lab y b).
  { destruct (Nat.eq_dec t' (lab y b)) as [->|N]; [reflexivity|exfalso].
    assert (G' := G b t' Hb Ht' N). destruct (A2 (lab y b) (lab_lt b Hb)) as [s1 [Hs1 L]].
    assert (M' := M s1 (lab y b) Hs1 (lab_lt b Hb)). assert (U' := A1 s' t' Hs' Ht'). unfold rest in M'. clear - G' L M' U'. qclra. }
  assert (Es : s' = lab y a).
  { destruct (Nat.eq_dec s' (lab y a)) as [->|N]; [reflexivity|exfalso].
    assert (G' := G a s' Ha Hs' N). destruct (B2 (lab y a) (lab_lt a Ha)) as [t1 [Ht1 L]].
    assert (M' := M (lab y a) t1 (lab_lt a Ha) Ht1). assert (U' := B1 s' t' Hs' Ht'). unfold rest in M'. clear - G' L M' U'. qclra. }
  rewrite <- Es, <- Et. apply M; assumption.
Qed.

(** Changing the labels at both ends of an edge is paid for by the node at either end. *)
Lemma edge_dst e s t : (e < length edges)%nat -> (s < k)%nat -> (t < k)%nat ->
  rest e s t + bel (dst e) t <= rest e (lab y (src e)) (lab y (dst e)) + bel (dst e) (lab y (dst e)) + (d + d).
Proof.
  intros He Hs Ht. destruct (ends e He) as [Ha Hb]. destruct (HS e He) as [c0 [c1 [A1 [A2 [B1 B2]]]]].
  destruct (B2 (lab y (src e)) (lab_lt _ Ha)) as [t1 [Ht1 L]].
  assert (M := edge_best e (lab y (src e)) t1 He (lab_lt _ Ha) Ht1). assert (U' := B1 s t Hs Ht).
  unfold rest in *. clear - M U' L. qclra.
Qed.
Lemma edge_src e s t : (e < length edges)%nat -> (s < k)%nat -> (t < k)%nat ->
  rest e s t + bel (src e) s <= rest e (lab y (src e)) (lab y (dst e)) + bel (src e) (lab y (src e)) + (d + d).
Proof.
  intros He Hs Ht. destruct (ends e He) as [Ha Hb]. destruct (HS e He) as [c0 [c1 [A1 [A2 [B1 B2]]]]].
  destruct (A2 (lab y (dst e)) (lab_lt _ Hb)) as [s1 [Hs1 L]].
  assert (M := edge_best e s1 (lab y (dst e)) He Hs1 (lab_lt _ Hb)). assert (U' := A1 s t Hs Ht).
  unfold rest in *. clear - M U' L. qclra.
Qed.

(** The score in terms of beliefs and the rest of every edge. *)
Lemma score_beliefs z : score n edges U P z =
  sumn n (fun v => bel v (z v)) + sumn (length edges) (fun e => rest e (z (src e)) (z (dst e))).
Proof.
  unfold score, loopy_belief, rest. rewrite (sumn_plus n).
  assert (E : sumn n (fun i => edge_terms edges fwd bwd i (z i)) =
              sumn (length edges) (fun e => get1 (fwd e) (z (dst e)) + get1 (bwd e) (z (src e)))).
  { unfold edge_terms. rewrite sumn_swap. apply sumn_ext. intros e He. destruct (ends e He) as [Ha Hb]. rewrite sumn_plus.
    rewrite (sumn_pick' n (dst e) (fun v => get1 (fwd e) (z v))) by exact Hb.
    rewrite (sumn_pick' n (src e) (fun v => get1 (bwd e) (z v))) by exact Ha. reflexivity. }
  rewrite E, sumn_plus, !sumn_minus. ring.
Qed.

(** Injective choices pick up at most the whole sum. *)
Lemma injective_le (f : nat -> Qc) (h : nat -> nat) (sel : nat -> bool) (ok : nat -> bool) : (forall v, (v < n)%nat -> 0 <= f v) ->
  forall m, (forall e, (e < m)%nat -> sel e = true -> (h e < n)%nat /\ ok (h e) = true) ->
  (forall e e', (e < m)%nat -> (e' < m)%nat -> sel e = true -> sel e' = true -> h e = h e' -> e = e') ->
  sumn m (fun e => ind (sel e) * f (h e)) <= sumn n (fun v => ind (ok v) * f v).
Proof.
  intros Hf m. revert ok. induction m as [|m IH]; intros ok R I.
  - rewrite sumn_O. apply sumn_nonneg. intros v Hv. specialize (Hf v Hv). unfold ind. destruct (ok v); [rewrite Qcmult_1_l|rewrite Qcmult_0_l; apply Qcle_refl]; exact Hf.
  - rewrite sumn_S. destruct (sel m) eqn:Es.
    + destruct (R m) as [Hm Om]; [lia|exact Es|].
      assert (Q := IH (fun v => ok v && negb (v =? h m)%nat)). cbv beta in Q.
      assert (E : sumn n (fun v => ind (ok v) * f v) = sumn n (fun v => ind (ok v && negb (v =? h m)%nat) * f v) + f (h m)).
      { rewrite <- (sumn_pick n (h m) f) by exact Hm. rewrite <- sumn_plus. apply sumn_ext. intros v Hv.
        destruct (Nat.eqb_spec v (h m)) as [->|]; [rewrite Om|rewrite andb_true_r]; unfold ind; simpl; ring. }
      rewrite E. replace (ind true * f (h m)) with (f (h m)) by (unfold ind; ring).
      apply Qcplus_le_compat; [|apply Qcle_refl]. apply Q.
      * intros e He Hs. destruct (R e) as [H1 H2]; [lia|exact Hs|]. split; [exact H1|]. rewrite H2. simpl.
        apply negb_true_iff. apply Nat.eqb_neq. intro X. assert (e = m) by (apply I; auto; lia). lia.
      * intros e e' He He'. apply I; lia.
    + replace (ind false * f (h m)) with 0 by (unfold ind; ring). rewrite Qcplus_0_r. apply IH.
      * intros e He. apply R. lia.
      * intros e e' He He'. apply I; lia.
Qed.

Lemma touching_sum D : ofN (touching edges D) = sumn (length edges) (fun e => ind (D (src e) || D (dst e))).
Proof.
  unfold touching. clear. induction edges as [|x l IH]; [rewrite sumn_O; apply Qc_is_canon; reflexivity|].
  simpl length. rewrite sumn_S_l. simpl nth. rewrite <- IH. simpl filter. destruct (D (fst x) || D (snd x)).
  - simpl length. rewrite ofN_S. unfold ind. ring.
  - unfold ind. ring.
Qed.

(** What a change costs at the nodes. *)
Definition loss (y' : list nat) (v : nat) : Qc := bel v (lab y v) - bel v (lab y' v).
Lemma same_outside y' v : differ y y' v = false -> lab y v = lab y' v.
Proof. intros Hv. unfold differ in Hv. apply negb_false_iff in Hv. apply Nat.eqb_eq. exact Hv. Qed.
Lemma loss_gap y' v : labelling n k y' -> (v < n)%nat -> differ y y' v = true -> d + d < loss y' v.
Proof.
  intros [L F] Hv Ev. destruct HD as [_ G]. unfold differ in Ev. apply negb_true_iff in Ev. apply Nat.eqb_neq in Ev.
  assert (Lt : (lab y' v < k)%nat). { rewrite Forall_forall in F. apply F. apply nth_In. lia. }
  assert (G' := G v (lab y' v) Hv Lt (fun X => Ev (eq_sym X))). unfold loss. clear - G'. qclra.
Qed.
Lemma loss_nonneg y' v : labelling n k y' -> (v < n)%nat -> 0 <= loss y' v.
Proof.
  intros L Hv. destruct (differ y y' v) eqn:Ev.
  - assert (G := loss_gap y' v L Hv Ev). clear - G Hd. qclra.
  - unfold loss. rewrite (same_outside y' v Ev). clear. qclra.
Qed.

Lemma region_main y' h : labelling n k y' -> handed edges (differ y y') h ->
  score n edges U P (lab y') <= score n edges U P (lab y) + (d + d) * ofN (touching edges (differ y y')) +
    sumn (length edges) (fun e => ind (differ y y' (src e) && differ y y' (dst e)) * loss y' (h e)) - sumn n (loss y').
Proof.
  intros Ly [H1 H2]. set (D := differ y y') in *.
  assert (Lt : forall v, (v < n)%nat -> (lab y' v < k)%nat).
  { destruct Ly as [L F]. intros v Hv. rewrite Forall_forall in F. apply F. apply nth_In. lia. }
  assert (E0 : forall v, D v = false -> lab y v = lab y' v) by apply same_outside.
  rewrite !score_beliefs.
  assert (HE : sumn (length edges) (fun e => rest e (lab y' (src e)) (lab y' (dst e))) <=
     sumn (length edges) (fun e => rest e (lab y (src e)) (lab y (dst e))) + (d + d) * ofN (touching edges D) +
     sumn (length edges) (fun e => ind (D (src e) && D (dst e)) * loss y' (h e))).
  { rewrite touching_sum, <- sumn_mult_l, <- !sumn_plus. apply sumn_le. intros e He. destruct (ends e He) as [Ha Hb].
    assert (S1 := edge_src e _ _ He (Lt _ Ha) (Lt _ Hb)). assert (S2 := edge_dst e _ _ He (Lt _ Ha) (Lt _ Hb)).
    destruct (D (src e)) eqn:Da; destruct (D (dst e)) eqn:Db; cbn [andb orb ind]; rewrite ?Qcmult_1_l, ?Qcmult_0_l, ?Qcmult_1_r, ?Qcmult_0_r.
    - assert (HH := H1 e He Da Db). unfold loss. destruct HH as [->| ->].
      + clear - S1. qclra.
      + clear - S2. qclra.
    - rewrite (E0 _ Db) in S2 |- *. clear - S2. qclra.
    - rewrite (E0 _ Da) in S1 |- *. clear - S1. qclra.
    - rewrite (E0 _ Da), (E0 _ Db). clear. qclra. }
  assert (HV : sumn n (fun v => bel v (lab y' v)) = sumn n (fun v => bel v (lab y v)) - sumn n (loss y')).
  { rewrite <- sumn_minus. apply sumn_ext. intros v Hv. unfold loss. ring. }
  rewrite HV. revert HE. generalize ((d + d) * ofN (touching edges D)). clear. intros q HE. qclra.
Qed.

Lemma handed_target D h e : handed edges D h -> (e < length edges)%nat -> D (src e) && D (dst e) = true -> (h e < n)%nat /\ D (h e) = true.
Proof.
  intros [H1 _] He Hs. apply andb_prop in Hs. destruct Hs as [Da Db]. destruct (ends e He) as [Ha Hb].
  destruct (H1 e He Da Db) as [->| ->]; auto.
Qed.
Lemma handed_injective D h e e' : handed edges D h -> (e < length edges)%nat -> (e' < length edges)%nat ->
  D (src e) && D (dst e) = true -> D (src e') && D (dst e') = true -> h e = h e' -> e = e'.
Proof. intros [_ H2] He He' Hs Hs'. apply andb_prop in Hs. apply andb_prop in Hs'. apply H2; tauto. Qed.

(** A changed node that receives no edge makes the change strictly worse. *)
Lemma region_strict y' h r : labelling n k y' -> handed edges (differ y y') h -> (r < n)%nat -> differ y y' r = true ->
  (forall e, (e < length edges)%nat -> differ y y' (src e) = true -> differ y y' (dst e) = true -> h e <> r) ->
  score n edges U P (lab y') + (d + d) < score n edges U P (lab y) + (d + d) * ofN (touching edges (differ y y')).
Proof.
  intros Ly HH Hr Dr NR. assert (M := region_main y' h Ly HH). assert (G := loss_gap y' r Ly Hr Dr).
  assert (HI : sumn (length edges) (fun e => ind (differ y y' (src e) && differ y y' (dst e)) * loss y' (h e)) <=
    sumn n (fun v => ind (negb (v =? r)%nat) * loss y' v)).
  { apply injective_le; [intros; apply loss_nonneg; assumption| |].
    - intros e He Hs. split; [apply (handed_target _ _ _ HH He Hs)|]. apply andb_prop in Hs.
      apply negb_true_iff, Nat.eqb_neq. apply NR; tauto.
    - intros e e' He He'. apply (handed_injective _ _ e e' HH He He'). }
  assert (E : sumn n (loss y') = sumn n (fun v => ind (negb (v =? r)%nat) * loss y' v) + loss y' r).
  { rewrite <- (sumn_pick n r (loss y')) by exact Hr. rewrite <- sumn_plus. apply sumn_ext. intros v Hv.
    destruct (v =? r)%nat; unfold ind; simpl; ring. }
  rewrite E in M. revert M. generalize ((d + d) * ofN (touching edges (differ y y'))). intros q M. clear - M G HI. qclra.
Qed.

Lemma region_best y' : labelling n k y' -> one_cycle_each edges (differ y y') ->
  score n edges U P (lab y') <= score n edges U P (lab y) + (d + d) * ofN (touching edges (differ y y')).
Proof.
  intros Ly [h HH]. assert (M := region_main y' h Ly HH).
  assert (HI : sumn (length edges) (fun e => ind (differ y y' (src e) && differ y y' (dst e)) * loss y' (h e)) <=
    sumn n (fun v => ind true * loss y' v)).
  { apply (injective_le (loss y') h _ (fun _ => true)); [intros; apply loss_nonneg; assumption| |].
    - intros e He Hs. split; [apply (handed_target _ _ _ HH He Hs)|reflexivity].
    - intros e e' He He'. apply (handed_injective _ _ e e' HH He He'). }
  assert (E : sumn n (fun v => ind true * loss y' v) = sumn n (loss y')) by (apply sumn_ext; intros; unfold ind; ring).
  rewrite E in HI. revert M. generalize ((d + d) * ofN (touching edges (differ y y'))). intros q M. clear - M HI. qclra.
Qed.
End Fixed.
