From Verif Require Import Model.LP Spec.Energy Spec.LocalPolytope Spec.LPSpec Spec.SolverSpec
  Proofs.Arrays Proofs.EnergyProofs Proofs.LossProofs Proofs.MaxProdProofs.

(** ** flattened tables *)
Lemma concat_length_rows {A} m (l : list (list A)) : Forall (fun r => length r = m) l -> length (concat l) = (length l * m)%nat.
Proof. induction 1; simpl; auto. rewrite app_length. lia. Qed.
Lemma nth_concat_rows {A} (d : A) m l i j : Forall (fun r => length r = m) l -> (i < length l)%nat -> (j < m)%nat ->
  nth (i * m + j) (concat l) d = nth j (nth i l []) d.
Proof.
  intro H. revert i. induction H as [|r l Hr H IH]; intros i Hi Hj; simpl in *; [lia|].
  destruct i; simpl.
  - rewrite app_nth1 by lia. reflexivity.
  - rewrite app_nth2 by nia. rewrite <- IH by lia. f_equal. nia.
Qed.
Lemma get1_concat m l i j : Forall (fun r => length r = m) l -> (i < length l)%nat -> (j < m)%nat ->
  get1 (concat l) (i * m + j) = get2 l i j.
Proof. apply nth_concat_rows. Qed.

Lemma lp_edge_triples_cons k off edges i is row : lp_edge_triples k off edges (i :: is) row =
  if lp_skip k i then lp_edge_triples k off edges is row
  else lp_row_triples k off edges i row ++ lp_edge_triples k off edges is (S row).
Proof. reflexivity. Qed.

(** ** rows of the loop *)
Definition row_dot (ts : list (Qc * nat * nat)) (x : list Qc) : Qc :=
  lsum (map (fun t => let '(v, i, j) := t in v * get1 x j) ts).

Lemma row_value_app A B x r : row_value (A ++ B) x r = row_value A x r + row_value B x r.
Proof. unfold row_value. rewrite map_app, lsum_app. reflexivity. Qed.
Lemma row_value_all A x r : (forall t, In t A -> snd (fst t) = r) -> row_value A x r = row_dot A x.
Proof.
  intro H. unfold row_value, row_dot. apply lsum_map_ext. intros [[v i] j] Ht.
  specialize (H _ Ht). simpl in H. subst i. rewrite Nat.eqb_refl. unfold ind. ring.
Qed.
Lemma row_value_none A x r : (forall t, In t A -> snd (fst t) <> r) -> row_value A x r = 0.
Proof.
  intro H. unfold row_value. rewrite <- (lsum_map_0 A). apply lsum_map_ext. intros [[v i] j] Ht.
  specialize (H _ Ht). simpl in H. destruct (Nat.eqb_spec i r); [congruence|]. unfold ind. ring.
Qed.

Lemma lp_row_triples_row k off edges i row t : In t (lp_row_triples k off edges i row) -> snd (fst t) = row.
Proof.
  unfold lp_row_triples. intros [<-|H]; [reflexivity|]. apply in_map_iff in H. destruct H as [j [<- _]]. reflexivity.
Qed.
Lemma lp_row_dot_row k off edges i row row' x :
  row_dot (lp_row_triples k off edges i row) x = row_dot (lp_row_triples k off edges i row') x.
Proof.
  unfold row_dot, lp_row_triples. simpl. f_equal. rewrite !map_map. reflexivity.
Qed.
Lemma lp_edge_triples_row k off edges is row t : In t (lp_edge_triples k off edges is row) -> (row <= snd (fst t))%nat.
Proof.
  revert row. induction is as [|i is IH]; intros row H; [destruct H|]. rewrite lp_edge_triples_cons in H.
  destruct (lp_skip k i); [auto|]. apply in_app_or in H. destruct H as [H|H].
  - apply lp_row_triples_row in H. lia.
  - apply IH in H. lia.
Qed.
Definition active (k : nat) (is : list nat) : list nat := filter (fun i => negb (lp_skip k i)) is.

Lemma lp_edge_rows k off edges is row x :
  (forall r, (row <= r < row + length (active k is))%nat -> row_value (lp_edge_triples k off edges is row) x r = 0) <->
  (forall i, In i is -> lp_skip k i = false -> row_dot (lp_row_triples k off edges i O) x = 0).
Proof.
  revert row. induction is as [|i is IH]; intro row.
  - split; [intros _ ? []|intros _ r Hr]. unfold row_value. reflexivity.
  - rewrite lp_edge_triples_cons. cbn [active filter In]. fold (active k is). destruct (lp_skip k i) eqn:E; cbn [negb length].
    + rewrite IH. split; intros H j Hj Hs; [destruct Hj as [<-|Hj]; [congruence|auto]|auto].
    + assert (V : forall r, row_value (lp_row_triples k off edges i row ++ lp_edge_triples k off edges is (S row)) x r =
                 if (r =? row)%nat then row_dot (lp_row_triples k off edges i O) x
                 else row_value (lp_edge_triples k off edges is (S row)) x r).
      { intro r. rewrite row_value_app. destruct (Nat.eqb_spec r row) as [->|Hne].
        - rewrite row_value_all by (intros t Ht; eapply lp_row_triples_row; eauto).
          rewrite (row_value_none (lp_edge_triples k off edges is (S row))).
          + rewrite (lp_row_dot_row k off edges i row O). ring.
          + intros t Ht. apply lp_edge_triples_row in Ht. lia.
        - rewrite (row_value_none (lp_row_triples k off edges i row)); [ring|].
          intros t Ht. apply lp_row_triples_row in Ht. congruence. }
      split.
      * intros H j Hj Hs. destruct Hj as [<-|Hj].
        { specialize (H row ltac:(lia)). rewrite V, Nat.eqb_refl in H. exact H. }
        revert j Hj Hs. apply (IH (S row)). intros r Hr. specialize (H r ltac:(lia)). rewrite V in H.
        destruct (Nat.eqb_spec r row); [lia|exact H].
      * intros H r Hr. rewrite V. destruct (Nat.eqb_spec r row); [apply H; auto|].
        apply (proj2 (IH (S row))); [|lia]. intros j Hj Hs. apply H; auto.
Qed.

(** ** loop counters *)
Lemma counter_decode k e v s : (v < 2)%nat -> (s < k)%nat ->
  let i := (e * (2 * k) + (v * k + s))%nat in lp_edge k i = e /\ lp_end k i = v /\ lp_state k i = s.
Proof.
  intros Hv Hs i. assert (Hk : k <> O) by lia. assert (H2 : (2 * k <> 0)%nat) by lia.
  assert (B : (v * k + s < 2 * k)%nat) by nia.
  unfold lp_edge, lp_end, lp_state, i. split; [|split].
  - rewrite Nat.div_add_l, Nat.div_small by assumption. lia.
  - rewrite Nat.add_comm, Nat.mod_add by assumption. rewrite Nat.mod_small by assumption.
    rewrite Nat.div_add_l, Nat.div_small by assumption. lia.
  - replace (e * (2 * k) + (v * k + s))%nat with (s + (2 * e + v) * k)%nat by ring.
    rewrite Nat.mod_add by assumption. apply Nat.mod_small, Hs.
Qed.
Lemma counter_encode k E i : (i < 2 * E * k)%nat ->
  exists e v s, (e < E)%nat /\ (v < 2)%nat /\ (s < k)%nat /\ i = (e * (2 * k) + (v * k + s))%nat.
Proof.
  intro Hi. assert (Hk : k <> O) by (intro; subst; lia).
  exists (i / (2 * k))%nat, ((i mod (2 * k)) / k)%nat, ((i mod (2 * k)) mod k)%nat.
  assert (H2 : (2 * k <> 0)%nat) by lia.
  assert (M := Nat.mod_upper_bound i (2 * k) H2).
  split; [apply Nat.div_lt_upper_bound; nia|].
  split; [apply Nat.div_lt_upper_bound; lia|].
  split; [apply Nat.mod_upper_bound; assumption|].
  rewrite (Nat.div_mod i (2 * k)) at 1 by assumption.
  rewrite (Nat.div_mod (i mod (2 * k)) k) at 1 by assumption. lia.
Qed.

(** ** the rows in terms of the variables *)
Section Rows.
Variables (n k : nat) (edges : list (nat * nat)) (x : list Qc).
Let E := length edges.

Lemma row_dot_first e s : (e < E)%nat -> (s < k)%nat ->
  row_dot (lp_row_triples k (n * k) edges (e * (2 * k) + (0 * k + s)) O) x =
  sumn k (fun t => var_nu n k x e s t) - var_mu k x (fst (nth e edges (0, 0)%nat)) s.
Proof.
  intros He Hs. destruct (counter_decode k e 0 s) as [D1 [D2 D3]]; [lia|exact Hs|].
  unfold row_dot, lp_row_triples. rewrite D1, D2, D3. simpl. rewrite map_map.
  fold (tab1 k (fun t => 1 * get1 x (n * k + e * (k * k) + s * k + t))). rewrite lsum_tab1.
  unfold var_mu, var_nu.
  rewrite (sumn_ext k (fun t => 1 * get1 x (n * k + e * (k * k) + s * k + t))
     (fun t => get1 x (n * k + (e * (k * k) + (s * k + t))))).
  - ring.
  - intros t _. rewrite Qcmult_1_l. f_equal. lia.
Qed.
Lemma row_dot_second e t : (e < E)%nat -> (t < k)%nat ->
  row_dot (lp_row_triples k (n * k) edges (e * (2 * k) + (1 * k + t)) O) x =
  sumn k (fun s => var_nu n k x e s t) - var_mu k x (snd (nth e edges (0, 0)%nat)) t.
Proof.
  intros He Ht. destruct (counter_decode k e 1 t) as [D1 [D2 D3]]; [lia|exact Ht|].
  unfold row_dot, lp_row_triples. rewrite D1, D2, D3. simpl. rewrite map_map.
  fold (tab1 k (fun s => 1 * get1 x (n * k + e * (k * k) + s * k + t))). rewrite lsum_tab1.
  unfold var_mu, var_nu.
  rewrite (sumn_ext k (fun s => 1 * get1 x (n * k + e * (k * k) + s * k + t))
     (fun s => get1 x (n * k + (e * (k * k) + (s * k + t))))).
  - ring.
  - intros s _. rewrite Qcmult_1_l. f_equal. lia.
Qed.
Lemma skip_first e s : (e < E)%nat -> (s < k)%nat -> lp_skip k (e * (2 * k) + (0 * k + s)) = false.
Proof. intros He Hs. destruct (counter_decode k e 0 s) as [D1 [D2 D3]]; [lia|exact Hs|]. unfold lp_skip. rewrite D2. reflexivity. Qed.
Lemma skip_second e t : (e < E)%nat -> (t < k)%nat -> lp_skip k (e * (2 * k) + (1 * k + t)) = (t =? k - 1)%nat.
Proof. intros He Hs. destruct (counter_decode k e 1 t) as [D1 [D2 D3]]; [lia|exact Hs|]. unfold lp_skip. rewrite D2, D3. reflexivity. Qed.

Lemma edge_constraints :
  (forall i, In i (seq 0 (2 * E * k)) -> lp_skip k i = false -> row_dot (lp_row_triples k (n * k) edges i O) x = 0) <->
  (forall e s, (e < E)%nat -> (s < k)%nat -> sumn k (fun t => var_nu n k x e s t) = var_mu k x (fst (nth e edges (0, 0)%nat)) s) /\
  (forall e t, (e < E)%nat -> (t < k - 1)%nat -> sumn k (fun s => var_nu n k x e s t) = var_mu k x (snd (nth e edges (0, 0)%nat)) t).
Proof.
  assert (Bnd : forall e v s, (e < E)%nat -> (v < 2)%nat -> (s < k)%nat -> In (e * (2 * k) + (v * k + s))%nat (seq 0 (2 * E * k))).
  { intros e v s He Hv Hs. apply in_seq. split; [lia|]. simpl plus. 
    assert (v * k + s < 2 * k)%nat by nia. assert ((S e) * (2 * k) <= E * (2 * k))%nat by (apply Nat.mul_le_mono_r; lia). nia. }
  split.
  - intro H. split.
    + intros e s He Hs. specialize (H _ (Bnd e 0%nat s He ltac:(lia) Hs) (skip_first e s He Hs)).
      rewrite row_dot_first in H by assumption. qclra.
    + intros e t He Ht. assert (Ht' : (t < k)%nat) by lia.
      assert (Sk := skip_second e t He Ht'). destruct (Nat.eqb_spec t (k - 1)); [lia|].
      specialize (H _ (Bnd e 1%nat t He ltac:(lia) Ht') Sk). rewrite row_dot_second in H by assumption. qclra.
  - intros [H1 H2] i Hi Hs. apply in_seq in Hi. destruct (counter_encode k E i ltac:(lia)) as [e [v [s [He [Hv [Hs' ->]]]]]].
    destruct v as [|[|v]]; [| |lia].
    + rewrite row_dot_first, H1 by assumption. ring.
    + rewrite skip_second in Hs by assumption. apply Nat.eqb_neq in Hs. rewrite row_dot_second, H2 by (assumption || lia). ring.
Qed.
End Rows.

(** number of rows *)
Lemma active_app k a b : active k (a ++ b) = active k a ++ active k b.
Proof. unfold active. apply filter_app. Qed.
Lemma active_none k l : (forall i, In i l -> lp_skip k i = false) -> active k l = l.
Proof.
  unfold active. induction l; simpl; intro H; auto. rewrite H by auto. simpl. f_equal. auto.
Qed.
Lemma active_count k E : (0 < k)%nat -> length (active k (seq 0 (2 * E * k))) = (E * (2 * k - 1))%nat.
Proof.
  intro Hk. induction E as [|E IH]; [reflexivity|].
  replace (2 * S E * k)%nat with (2 * E * k + 2 * k)%nat by ring. rewrite seq_app, active_app, app_length, IH. change (0 + 2 * E * k)%nat with (2 * E * k)%nat.
  assert (Q : length (active k (seq (2 * E * k) (2 * k))) = (2 * k - 1)%nat).
  { replace (2 * k)%nat with ((2 * k - 1) + 1)%nat at 1 by lia. rewrite seq_app, active_app, app_length.
    rewrite active_none.
    - assert (Sk : lp_skip k (2 * E * k + (2 * k - 1)) = true).
      { replace (2 * E * k + (2 * k - 1))%nat with (E * (2 * k) + (1 * k + (k - 1)))%nat by lia.
        destruct (counter_decode k E 1 (k - 1)) as [D1 [D2 D3]]; [lia|lia|].
        unfold lp_skip. rewrite D2, D3, (Nat.eqb_refl (k - 1)). reflexivity. }
      rewrite seq_length. unfold active. cbn [seq filter]. rewrite Sk. cbn [negb length]. lia.
    - intros i Hi. apply in_seq in Hi.
      destruct (Nat.lt_ge_cases (i - E * (2 * k)) k) as [L|L].
      + replace i with (E * (2 * k) + (0 * k + (i - E * (2 * k))))%nat by lia.
        destruct (counter_decode k E 0 (i - E * (2 * k))) as [D1 [D2 D3]]; [lia|lia|].
        unfold lp_skip. rewrite D2. reflexivity.
      + replace i with (E * (2 * k) + (1 * k + (i - E * (2 * k) - k)))%nat by lia.
        destruct (counter_decode k E 1 (i - E * (2 * k) - k)) as [D1 [D2 D3]]; [lia|lia|].
        unfold lp_skip. rewrite D2, D3. destruct (Nat.eqb_spec (i - E * (2 * k) - k) (k - 1)); [lia|reflexivity]. }
  rewrite Q. lia.
Qed.

Lemma fold_max_app a b : fold_right Nat.max O (a ++ b) = Nat.max (fold_right Nat.max O a) (fold_right Nat.max O b).
Proof. induction a; simpl; auto. rewrite IHa. lia. Qed.
Definition top (ts : list (Qc * nat * nat)) : nat := fold_right Nat.max O (map (fun t => S (snd (fst t))) ts).
Lemma top_app a b : top (a ++ b) = Nat.max (top a) (top b).
Proof. unfold top. rewrite map_app. apply fold_max_app. Qed.
Lemma top_const ts r : ts <> [] -> (forall t, In t ts -> snd (fst t) = r) -> top ts = S r.
Proof.
  intros Hne H. destruct ts as [|t ts]; [congruence|]. clear Hne. revert t H.
  induction ts as [|t' ts IH]; intros t H; unfold top in *; simpl in *.
  - rewrite (H t) by auto. lia.
  - rewrite (IH t') by auto. rewrite (H t) by auto. lia.
Qed.
Lemma lp_row_triples_nonempty k off edges i row : lp_row_triples k off edges i row <> [].
Proof. discriminate. Qed.
Lemma top_edge k off edges is row : (active k is <> [] -> top (lp_edge_triples k off edges is row) = (row + length (active k is))%nat) /\
  (active k is = [] -> top (lp_edge_triples k off edges is row) = O).
Proof.
  revert row. induction is as [|i is IH]; intro row; [split; [simpl; congruence|reflexivity]|].
  rewrite lp_edge_triples_cons. cbn [active filter]. fold (active k is). destruct (lp_skip k i); cbn [negb]; auto. destruct (IH (S row)) as [I1 I2].
  split; [|discriminate]. intros _. rewrite top_app, (top_const _ row).
  - destruct (active k is) eqn:EA.
    + rewrite I2 by reflexivity. simpl. lia.
    + rewrite I1 by discriminate. simpl. lia.
  - apply lp_row_triples_nonempty.
  - intros t Ht. eapply lp_row_triples_row; eauto.
Qed.
Lemma top_node n k : (0 < k)%nat -> top (lp_node_triples n k) = n.
Proof.
  intro Hk. unfold lp_node_triples. induction n; [reflexivity|].
  rewrite seq_S, flat_map_app, top_app, IHn. simpl flat_map. rewrite app_nil_r.
  rewrite (top_const _ n); [lia| |].
  - destruct k; [lia|discriminate].
  - intros t Ht. apply in_map_iff in Ht. destruct Ht as [j [<- _]]. reflexivity.
Qed.

Lemma node_row_value n k x r : (r < n)%nat -> row_value (lp_node_triples n k) x r = sumn k (var_mu k x r).
Proof.
  intro Hr. unfold lp_node_triples. rewrite <- (sumn_pick n r (fun i => sumn k (var_mu k x i))) by exact Hr.
  clear Hr. unfold row_value. induction n; [reflexivity|].
  rewrite seq_S, flat_map_app, map_app, lsum_app, IHn, sumn_S. f_equal. simpl flat_map. rewrite app_nil_r, map_map.
  fold (tab1 k (fun j => ind (n =? r)%nat * (1 * get1 x (n * k + j)))). rewrite lsum_tab1.
  rewrite <- sumn_mult_l. apply sumn_ext. intros j _. unfold var_mu. ring.
Qed.
Lemma node_row_value_out n k x r : (n <= r)%nat -> row_value (lp_node_triples n k) x r = 0.
Proof.
  intro Hr. apply row_value_none. intros t Ht. apply in_flat_map in Ht. destruct Ht as [i [Hi Ht]].
  apply in_seq in Hi. apply in_map_iff in Ht. destruct Ht as [j [<- _]]. simpl. lia.
Qed.

(** ** the constraints describe the local polytope *)
Lemma lp_build_ok U edges d n k :
  mrows U = n -> mcols U = k -> (0 < n)%nat -> (0 < k)%nat ->
  exists pb, lp_build U edges d = Ok pb /\
    lp_vars pb = (n * k + length edges * (k * k))%nat /\ lp_rows pb = (n + length edges * (2 * k - 1))%nat /\
    lp_c pb = ravel U ++ concat (map (@concat Qc) d) /\
    (forall r, (r < lp_rows pb)%nat -> get1 (lp_b pb) r = ind (r <? n)%nat) /\
    lp_A pb = lp_node_triples n k ++ lp_edge_triples k (n * k) edges (seq 0 (2 * length edges * k)) n.
Proof.
  intros Hr Hc Hn Hk. unfold lp_build. rewrite Hr, Hc.
  set (ts := lp_node_triples n k ++ lp_edge_triples k (n * k) edges (seq 0 (2 * length edges * k)) n).
  assert (T : fold_right Nat.max O (map (fun t => S (snd (fst t))) ts) = (n + length edges * (2 * k - 1))%nat).
  { change (top ts = (n + length edges * (2 * k - 1))%nat). unfold ts. rewrite top_app, top_node by exact Hk.
    destruct (top_edge k (n * k) edges (seq 0 (2 * length edges * k)) n) as [T1 T2].
    assert (AC := active_count k (length edges) Hk).
    destruct (active k (seq 0 (2 * length edges * k))) eqn:EA.
    - rewrite T2 by reflexivity. simpl in AC. lia.
    - rewrite T1 by discriminate. rewrite AC. lia. }
  rewrite T. rewrite (proj2 (Z.eqb_eq _ _)) by nia. cbn [ensure bind].
  eexists. split; [reflexivity|]. simpl. repeat (split; [reflexivity|]). split; [|reflexivity].
  intros r Hr'. apply get1_tab1. exact Hr'.
Qed.

Lemma lp_feasible_iff pb edges n k x :
  (0 < k)%nat -> graph_edges n edges ->
  lp_vars pb = (n * k + length edges * (k * k))%nat -> lp_rows pb = (n + length edges * (2 * k - 1))%nat ->
  (forall r, (r < lp_rows pb)%nat -> get1 (lp_b pb) r = ind (r <? n)%nat) ->
  lp_A pb = lp_node_triples n k ++ lp_edge_triples k (n * k) edges (seq 0 (2 * length edges * k)) n ->
  feasible pb x <->
  length x = (n * k + length edges * (k * k))%nat /\ local_polytope n k edges (var_mu k x) (var_nu n k x).
Proof.
  intros Hk Hg HV HR HB HA. unfold feasible. rewrite HV, HR.
  assert (AC := active_count k (length edges) Hk).
  assert (RV : forall r, (r < n + length edges * (2 * k - 1))%nat ->
     (row_value (lp_A pb) x r = get1 (lp_b pb) r <->
      if (r <? n)%nat then sumn k (var_mu k x r) = 1
      else row_value (lp_edge_triples k (n * k) edges (seq 0 (2 * length edges * k)) n) x r = 0)).
  { intros r Hr. rewrite HB by (rewrite HR; exact Hr). rewrite HA, row_value_app.
    destruct (Nat.ltb_spec r n) as [L|L].
    - rewrite node_row_value by exact L.
      rewrite (row_value_none (lp_edge_triples _ _ _ _ _)) by (intros t Ht; apply lp_edge_triples_row in Ht; lia).
      unfold ind. split; intro H; [rewrite <- H; ring|rewrite H; ring].
    - rewrite node_row_value_out by exact L. unfold ind. split; intro H; [rewrite <- H; ring|rewrite H; ring]. }
  assert (EC := lp_edge_rows k (n * k) edges (seq 0 (2 * length edges * k)) n x). rewrite AC in EC.
  rewrite (edge_constraints n k edges x) in EC.
  split.
  - intros [HL [HP HE]]. split; [exact HL|].
    assert (H1 : forall i, (i < n)%nat -> sumn k (var_mu k x i) = 1).
    { intros i Hi. specialize (HE i ltac:(lia)). apply RV in HE; [|lia]. destruct (Nat.ltb_spec i n); [exact HE|lia]. }
    assert (H2 : forall r, (n <= r < n + length edges * (2 * k - 1))%nat ->
       row_value (lp_edge_triples k (n * k) edges (seq 0 (2 * length edges * k)) n) x r = 0).
    { intros r Hr. specialize (HE r ltac:(lia)). apply RV in HE; [|lia]. destruct (Nat.ltb_spec r n); [lia|exact HE]. }
    apply EC in H2. destruct H2 as [F G]. constructor; auto.
    + intros i s Hi Hs. apply HP. nia.
    + intros e s t He Hs Ht. apply HP.
      assert (s * k + t < k * k)%nat by nia.
      assert (S e * (k * k) <= length edges * (k * k))%nat by (apply Nat.mul_le_mono_r; lia). nia.
    + intros e t He Ht. destruct (Nat.eq_dec t (k - 1)) as [->|]; [|apply G; lia].
      (* the row that is left out *)
      destruct (graph_edges_nth _ _ _ Hg He) as [Ha Hb].
      assert (TT : sumn k (fun t => sumn k (fun s => var_nu n k x e s t)) = 1).
      { rewrite sumn_swap. rewrite (sumn_ext k _ (var_mu k x (fst (nth e edges (0, 0)%nat)))) by (intros s Hs; apply F; auto).
        apply H1. exact Ha. }
      assert (T1 := H1 _ Hb).
      destruct k as [|k']; [lia|]. replace (S k' - 1)%nat with k' in * by lia.
      rewrite sumn_S in TT. rewrite (sumn_S k' (var_mu _ _ _)) in T1.
      rewrite (sumn_ext k' _ (var_mu (S k') x (snd (nth e edges (0, 0)%nat)))) in TT by (intros t Ht'; apply G; auto).
      set (a := sumn k' (var_mu (S k') x (snd (nth e edges (0, 0)%nat)))) in *.
      set (b := sumn (S k') (fun s => var_nu n (S k') x e s k')) in *.
      set (c := var_mu (S k') x (snd (nth e edges (0, 0)%nat)) k') in *. clearbody a b c. qclra.
  - intros [HL [P1 P2 P3 P4 P5]]. split; [exact HL|]. split.
    + intros j Hj. destruct (Nat.lt_ge_cases j (n * k)) as [L|L].
      * assert (H : j = (j / k * k + j mod k)%nat) by (rewrite Nat.mul_comm; apply Nat.div_mod; lia).
        rewrite H. apply P1; [apply Nat.div_lt_upper_bound; lia|apply Nat.mod_upper_bound; lia].
      * set (j' := (j - n * k)%nat). assert (K2 : (k * k <> 0)%nat) by nia.
        assert (D1 := Nat.div_mod j' (k * k) K2). assert (D2 := Nat.div_mod (j' mod (k * k)) k ltac:(lia)).
        assert (M1 := Nat.mod_upper_bound j' (k * k) K2). assert (M2 := Nat.mod_upper_bound (j' mod (k * k)) k ltac:(lia)).
        assert (Q1 : (j' / (k * k) < length edges)%nat) by (apply Nat.div_lt_upper_bound; [exact K2|unfold j'; nia]).
        assert (Q2 : ((j' mod (k * k)) / k < k)%nat) by (apply Nat.div_lt_upper_bound; lia).
        specialize (P2 _ _ _ Q1 Q2 M2). unfold var_nu in P2.
        replace (n * k + (j' / (k * k) * (k * k) + (j' mod (k * k) / k * k + (j' mod (k * k)) mod k)))%nat with j in P2; [exact P2|].
        unfold j' in *. lia.
    + intros r Hr. apply RV; [exact Hr|]. destruct (Nat.ltb_spec r n) as [L|L]; [apply P3; exact L|].
      apply EC; [|lia]. split; auto. intros e t He Ht. apply P5; auto. lia.
Qed.
