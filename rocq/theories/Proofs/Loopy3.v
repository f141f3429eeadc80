(** Regions without cycles, single loops, and the whole inference call. *)
From Verif Require Import Model.MaxProd Spec.LoopySpec Proofs.Arrays Proofs.EnergyProofs Proofs.MaxProdProofs Proofs.SearchProofs
  Proofs.ForestLP Proofs.Kruskal Proofs.Loopy Proofs.Loopy2.

(** ** an acyclic edge list: every edge gets an end, and one chosen node per component gets none *)
Lemma forest_heads E : acyclic E -> forall root : nat -> nat,
  (forall x y, connected E x y -> root x = root y) -> (forall x, connected E x (root x)) ->
  exists h : nat -> nat,
    (forall e, (e < length E)%nat -> (h e = fst (nth e E (0, 0)%nat) \/ h e = snd (nth e E (0, 0)%nat)) /\ h e <> root (h e)) /\
    (forall e e', (e < length E)%nat -> (e' < length E)%nat -> h e = h e' -> e = e').
Proof.
  induction E as [|[a b] E IH]; intros AC root R1 R2.
  - exists (fun _ => 0%nat). split; intros; simpl in *; lia.
  - apply (proj1 (acyclic_cons_iff a b E)) in AC. destruct AC as [AE Nab].
    assert (Sub : forall x y, connected E x y -> connected ((a, b) :: E) x y).
    { intros x y. apply connected_sub. intros z Hz. right. exact Hz. }
    assert (Eab : root a = root b). { apply R1. apply rst_step. left. reflexivity. }
    (* the side of the new edge without the root gets its own end of the edge as root *)
    assert (Main : forall c c', (c = a /\ c' = b \/ c = b /\ c' = a) -> connected E c (root a) ->
      exists h : nat -> nat,
        (forall e, (e < length ((a, b) :: E))%nat -> (h e = fst (nth e ((a, b) :: E) (0, 0)%nat) \/ h e = snd (nth e ((a, b) :: E) (0, 0)%nat)) /\ h e <> root (h e)) /\
        (forall e e', (e < length ((a, b) :: E))%nat -> (e' < length ((a, b) :: E))%nat -> h e = h e' -> e = e')).
    { intros c c' Hc Cr.
      assert (Ncc : ~ connected E c' c). { intro X. apply Nab. destruct Hc as [[-> ->]|[-> ->]]; [apply rst_sym|]; exact X. }
      assert (Rc : root c = root a /\ root c' = root a) by (destruct Hc as [[-> ->]|[-> ->]]; auto).
      set (root' := fun x => if (comp E x =? comp E c')%nat then c' else root x).
      destruct (IH AE root') as [h [H1 H2]].
      - intros x y Cxy. unfold root'. rewrite (proj1 (connected_comp E x y) Cxy). destruct (comp E y =? comp E c')%nat; [reflexivity|]. apply R1, Sub, Cxy.
      - intro x. unfold root'. destruct (Nat.eqb_spec (comp E x) (comp E c')) as [Q|Q]; [apply connected_comp, Q|].
        assert (Nx : ~ connected E x c') by (intro X; apply Q, connected_comp, X).
        assert (W := R2 x). apply connected_split in W.
        destruct W as [W|[[W1 W2]|[W1 W2]]]; [exact W| |].
        + assert (Ex : root x = root a) by (apply R1, Sub, W1). rewrite Ex in *.
          destruct Hc as [[-> ->]|[-> ->]]; [apply rst_trans with a; assumption|contradiction].
        + assert (Ex : root x = root a). { rewrite Eab. apply R1, Sub, W1. } rewrite Ex in *.
          destruct Hc as [[-> ->]|[-> ->]]; [contradiction|apply rst_trans with b; assumption].
      - assert (NH : forall e, (e < length E)%nat -> h e <> c' /\ h e <> root (h e)).
        { intros e He. destruct (H1 e He) as [_ N]. unfold root' in N. destruct (Nat.eqb_spec (comp E (h e)) (comp E c')) as [Q|Q].
          - split; [exact N|]. intro X.
            assert (Ex : root (h e) = root a).
            { destruct Rc as [_ Rc]. rewrite <- Rc. apply R1, Sub, connected_comp, Q. }
            rewrite Ex in X. apply Ncc. apply rst_trans with (h e); [apply rst_sym, connected_comp, Q|]. rewrite X. apply rst_sym, Cr.
          - split; [|exact N]. intro X. apply Q. rewrite X. reflexivity. }
        exists (fun e => match e with 0%nat => c' | S i => h i end). split.
        + intros [|e] He; simpl in He |- *.
          * split; [destruct Hc as [[_ ->]|[_ ->]]; auto|]. destruct Rc as [_ Rc]. rewrite Rc. intro X. apply Ncc. rewrite X. apply rst_sym, Cr.
          * split; [apply H1; lia|apply NH; lia].
        + intros [|e] [|e'] He He' X; simpl in He, He'; auto.
          * exfalso. destruct (NH e') as [N _]; [lia|]. congruence.
          * exfalso. destruct (NH e) as [N _]; [lia|]. congruence.
          * f_equal. apply H2; auto; lia. }
    assert (W := R2 a). apply connected_split in W. destruct W as [W|[[_ W]|[W _]]].
    + apply (Main a b); auto.
    + apply (Main b a); auto.
    + exfalso. apply Nab, W.
Qed.

(** ** from a filtered list back to positions *)
Lemma filter_positions (f : nat * nat -> bool) (E : list (nat * nat)) : exists pos : nat -> nat,
  (forall e, (e < length E)%nat -> f (nth e E (0, 0)%nat) = true -> (pos e < length (filter f E))%nat /\ nth (pos e) (filter f E) (0, 0)%nat = nth e E (0, 0)%nat) /\
  (forall e e', (e < length E)%nat -> (e' < length E)%nat -> f (nth e E (0, 0)%nat) = true -> f (nth e' E (0, 0)%nat) = true -> pos e = pos e' -> e = e').
Proof.
  induction E as [|x E [pos [H1 H2]]].
  - exists (fun _ => 0%nat). split; intros; simpl in *; lia.
  - simpl filter. destruct (f x) eqn:Ex.
    + exists (fun e => match e with 0%nat => 0%nat | S i => S (pos i) end). split.
      * intros [|e] He Hf; simpl in *; [split; [lia|reflexivity]|]. destruct (H1 e) as [A B]; [lia|exact Hf|]. split; [lia|exact B].
      * intros [|e] [|e'] He He' Hf Hf' X; simpl in *; auto; try discriminate. f_equal. apply H2; auto; lia.
    + exists (fun e => match e with 0%nat => 0%nat | S i => pos i end). split.
      * intros [|e] He Hf; simpl in *; [congruence|]. apply H1; [lia|exact Hf].
      * intros [|e] [|e'] He He' Hf Hf' X; simpl in *; auto; try congruence. f_equal. apply H2; auto; lia.
Qed.

Lemma acyclic_handed edges D r : acyclic (inner edges D) -> exists h, handed edges D h /\
  forall e, (e < length edges)%nat -> D (fst (nth e edges (0, 0)%nat)) = true -> D (snd (nth e edges (0, 0)%nat)) = true -> h e <> r.
Proof.
  intro AC. set (E := inner edges D) in *.
  set (root := fun x => if (comp E x =? comp E r)%nat then r else comp E x).
  assert (R1 : forall x y, connected E x y -> root x = root y).
  { intros x y C. unfold root. rewrite (proj1 (connected_comp E x y) C). reflexivity. }
  assert (R2 : forall x, connected E x (root x)).
  { intro x. unfold root. destruct (Nat.eqb_spec (comp E x) (comp E r)) as [Q|Q]; [apply connected_comp, Q|apply comp_connected]. }
  destruct (forest_heads E AC root R1 R2) as [h [H1 H2]].
  destruct (filter_positions (fun e => D (fst e) && D (snd e)) edges) as [pos [P1 P2]].
  fold (inner edges D) in P1. fold E in P1.
  assert (IN : forall e, (e < length edges)%nat -> D (fst (nth e edges (0, 0)%nat)) = true -> D (snd (nth e edges (0, 0)%nat)) = true ->
    (pos e < length E)%nat /\ nth (pos e) E (0, 0)%nat = nth e edges (0, 0)%nat).
  { intros e He A B. apply P1; [exact He|]. rewrite A, B. reflexivity. }
  exists (fun e => h (pos e)). split; [split|].
  - intros e He A B. destruct (IN e He A B) as [L Q]. destruct (H1 (pos e) L) as [K _]. rewrite Q in K. exact K.
  - intros e e' He He' A B A' B' X. apply P2; auto; [rewrite A, B; reflexivity|rewrite A', B'; reflexivity|].
    apply H2; [apply IN; assumption|apply IN; assumption|exact X].
  - intros e He A B X. destruct (IN e He A B) as [L Q]. destruct (H1 (pos e) L) as [_ N]. rewrite X in N. apply N.
    unfold root. rewrite Nat.eqb_refl. reflexivity.
Qed.
Lemma acyclic_one_cycle edges D : acyclic (inner edges D) -> one_cycle_each edges D.
Proof. intro AC. destruct (acyclic_handed edges D 0 AC) as [h [H _]]. exists h. exact H. Qed.

(** A smaller region, and graphs in which no node is the first (second) end of two edges. *)
Lemma one_cycle_sub edges D D' : (forall v, D' v = true -> D v = true) -> one_cycle_each edges D -> one_cycle_each edges D'.
Proof.
  intros S [h [H1 H2]]. exists h. split.
  - intros e He A B. apply H1; auto.
  - intros e e' He He' A B A' B' X. apply H2; auto.
Qed.
Lemma NoDup_one_cycle edges D : NoDup (map fst edges) \/ NoDup (map snd edges) -> one_cycle_each edges D.
Proof.
  intros [N|N].
  - exists (fun e => fst (nth e edges (0, 0)%nat)). split; [auto|]. intros e e' He He' _ _ _ _ X.
    rewrite (NoDup_nth (map fst edges) 0%nat) in N. apply N; rewrite ?map_length; auto.
    change 0%nat with (fst (0, 0)%nat). rewrite !map_nth. exact X.
  - exists (fun e => snd (nth e edges (0, 0)%nat)). split; [auto|]. intros e e' He He' _ _ _ _ X.
    rewrite (NoDup_nth (map snd edges) 0%nat) in N. apply N; rewrite ?map_length; auto.
    change 0%nat with (snd (0, 0)%nat). rewrite !map_nth. exact X.
Qed.

(** ** one more edge than a forest *)
Lemma inner_app E F D : inner (E ++ F) D = inner E D ++ inner F D.
Proof. unfold inner. apply filter_app. Qed.
Lemma unicyclic_one_cycle E1 a b E2 D : acyclic (inner (E1 ++ E2) D) -> one_cycle_each (E1 ++ (a, b) :: E2) D.
Proof.
  intro AC. destruct (acyclic_handed (E1 ++ E2) D a AC) as [h [[H1 H2] H3]].
  set (old := fun e => if (e <? length E1)%nat then e else (e - 1)%nat).
  assert (ON : forall e, (e < length (E1 ++ (a, b) :: E2))%nat -> e <> length E1 ->
    (old e < length (E1 ++ E2))%nat /\ nth (old e) (E1 ++ E2) (0, 0)%nat = nth e (E1 ++ (a, b) :: E2) (0, 0)%nat).
  { intros e He Ne. rewrite app_length in *. simpl in He. unfold old. destruct (Nat.ltb_spec e (length E1)).
    - split; [lia|]. rewrite !app_nth1 by lia. reflexivity.
    - split; [lia|]. rewrite !app_nth2 by lia. replace (e - length E1)%nat with (S (e - 1 - length E1)) by lia. reflexivity. }
  exists (fun e => if (e =? length E1)%nat then a else h (old e)). split.
  - intros e He A B. destruct (Nat.eqb_spec e (length E1)) as [->|Ne].
    + left. rewrite app_nth2, Nat.sub_diag by lia. reflexivity.
    + destruct (ON e He Ne) as [L Q]. rewrite <- Q in *. apply H1; assumption.
  - intros e e' He He' A B A' B' X. destruct (Nat.eqb_spec e (length E1)) as [->|Ne]; destruct (Nat.eqb_spec e' (length E1)) as [->|Ne']; auto.
    + exfalso. destruct (ON e' He' Ne') as [L Q]. rewrite <- Q in *. apply (H3 (old e')); auto.
    + exfalso. destruct (ON e He Ne) as [L Q]. rewrite <- Q in *. apply (H3 (old e)); auto.
    + destruct (ON e He Ne) as [L Q]. destruct (ON e' He' Ne') as [L' Q']. rewrite <- Q in *. rewrite <- Q' in *.
      assert (W := H2 _ _ L L' A B A' B' X). unfold old in W.
      destruct (Nat.ltb_spec e (length E1)); destruct (Nat.ltb_spec e' (length E1)); lia.
Qed.

(** ** fixed points, again *)
Lemma region_acyclic n k edges U P fwd bwd d y y' : (0 < k)%nat -> graph_edges n edges -> 0 <= d ->
  (forall e, (e < length edges)%nat -> settled k edges U P fwd bwd d e) -> decided n k edges U fwd bwd (d + d) y ->
  labelling n k y' -> acyclic (inner edges (differ y y')) -> y' <> y ->
  score n edges U P (lab y') + (d + d) < score n edges U P (lab y) + (d + d) * ofN (touching edges (differ y y')).
Proof.
  intros Hk Hg Hd HS HD Ly AC Ny.
  assert (R : exists r, (r < n)%nat /\ differ y y' r = true).
  { destruct HD as [[L1 _] _]. destruct Ly as [L2 _].
    assert (X : existsb (differ y y') (seq 0 n) = true).
    { destruct (existsb (differ y y') (seq 0 n)) eqn:X; [reflexivity|exfalso]. apply Ny. apply nth_ext with 0%nat 0%nat; [congruence|].
      intros i Hi. rewrite L2 in Hi. symmetry. change (lab y i = lab y' i). apply (same_outside y).
      destruct (differ y y' i) eqn:Y; [|reflexivity]. rewrite <- X. symmetry. apply existsb_exists. exists i. split; [apply in_seq; lia|exact Y]. }
    apply existsb_exists in X. destruct X as [r [I D]]. apply in_seq in I. exists r. split; [lia|exact D]. }
  destruct R as [r [Hr Dr]]. destruct (acyclic_handed edges (differ y y') r AC) as [h [H NR]].
  exact (region_strict n k edges U P fwd bwd d y Hk Hg Hd HS HD y' h r Ly H Hr Dr NR).
Qed.

Lemma touching_le edges D : (touching edges D <= length edges)%nat.
Proof. unfold touching. induction edges as [|x l IH]; simpl; [lia|]. destruct (D (fst x) || D (snd x)); simpl; lia. Qed.
Lemma ofN_le a b : (a <= b)%nat -> ofN a <= ofN b.
Proof. intro H. replace b with (a + (b - a))%nat by lia. rewrite ofN_plus. assert (N := ofN_nonneg (b - a)). clear - N. qclra. Qed.
Lemma whole_graph n k edges U P fwd bwd d y : (0 < k)%nat -> graph_edges n edges -> 0 <= d ->
  (forall e, (e < length edges)%nat -> settled k edges U P fwd bwd d e) -> decided n k edges U fwd bwd (d + d) y ->
  one_cycle_each edges (fun _ => true) ->
  forall y', labelling n k y' -> score n edges U P (lab y') <= score n edges U P (lab y) + (d + d) * ofN (length edges).
Proof.
  intros Hk Hg Hd HS HD OC y' Ly.
  assert (R := region_best n k edges U P fwd bwd d y Hk Hg Hd HS HD y' Ly (one_cycle_sub edges _ _ (fun v _ => eq_refl) OC)).
  eapply Qcle_trans; [exact R|]. apply Qcplus_le_compat; [apply Qcle_refl|]. rewrite !(Qcmult_comm (d + d)).
  apply Qcmult_le_compat_r; [apply ofN_le, touching_le|clear - Hd; qclra].
Qed.

(** ** the whole inference call on a graph with cycles *)
Lemma loopy_inference n k U p edges m damping tol : mrows U = n -> mcols U = k -> (0 < k)%nat -> pw_shape p (length edges) k ->
  graph_edges n edges -> edges <> [] -> is_chain edges n = false -> ~ acyclic edges -> 0 <= damping -> damping < 1 ->
  exists v st y,
    validate_params U p (length edges) = Ok v /\
    loopy_iter (S m) k U damping default_tol edges (snd v) (Loopy (fun _ => vzero k) (fun _ => vzero k) (fun _ => vzero k) 0) = Ok st /\
    inference_max_product U p edges (S m) damping tol = Ok y /\
    let d := lp_diff st / (1 - damping) in
    (forall e, (e < length edges)%nat -> settled k edges (mget U) (pw_table p) (lp_fwd st) (lp_bwd st) d e) /\
    (decided n k edges (mget U) (lp_fwd st) (lp_bwd st) (d + d) y ->
     forall y', labelling n k y' -> one_cycle_each edges (differ y y') ->
       score n edges (mget U) (pw_table p) (lab y') <=
       score n edges (mget U) (pw_table p) (lab y) + (d + d) * ofN (touching edges (differ y y'))).
Proof.
  intros Hr Hc Hk Hp Hg Hne Hch NA H0 H1.
  destruct (validate_ok U p edges k Hc) as [pws [E [HL HT]]]; [destruct p; exact Hp|].
  destruct (is_forest_correct edges (Some n) Hne Hg) as [b [Eb Hb]].
  assert (b = false). { destruct b; [|reflexivity]. exfalso. apply NA, Hb. reflexivity. } subst b.
  destruct (loopy_settles U pws edges n k m damping default_tol Hr Hc Hk Hg HL H0 H1) as [st [y [Es [Ey [Ly [D0 [_ SS]]]]]]].
  exists (k, pws), st, y. split; [exact E|]. split; [exact Es|]. split.
  { unfold inference_max_product. rewrite E. cbn [bind snd]. rewrite Hr, Hch, Eb. cbn [bind]. exact Ey. }
  cbv zeta. assert (SS' : forall e, (e < length edges)%nat -> settled k edges (mget U) (pw_table p) (lp_fwd st) (lp_bwd st) (lp_diff st / (1 - damping)) e).
  { intros e He. assert (S1 := SS e He). unfold settled in *. assert (EP : pw_table p e = get2 (nth e pws [])) by (rewrite (HT e He); destruct p; reflexivity).
    rewrite EP. exact S1. }
  split; [exact SS'|]. intros HD y' Ly' OC.
  apply (region_best n k edges (mget U) (pw_table p) (lp_fwd st) (lp_bwd st)); auto.
  unfold Qcdiv. destruct (inverse_ok damping H0 H1) as [_ R1]. replace 0 with (0 * / (1 - damping)) by ring.
  apply Qcmult_le_compat_r; [exact D0|clear - R1; qclra].
Qed.
