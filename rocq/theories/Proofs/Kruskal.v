(** Acyclic edge sets, their extensions, and minimum spanning forests: the greedy algorithm finds one. *)
From Coq Require Import Permutation Lia.
From Verif Require Import Spec.ChowLiuSpec Proofs.ForestLP.

Lemma connected_sub E E' a b : incl E E' -> connected E a b -> connected E' a b.
Proof. exact (connected_mono E E' a b). Qed.
Lemma connected_split a b E c d : connected ((a, b) :: E) c d ->
  connected E c d \/ (connected E c a /\ connected E b d) \/ (connected E c b /\ connected E a d).
Proof.
  intro H. induction H as [x y I|x|x y _ IH|x y z _ IH1 _ IH2].
  - destruct I as [Q|I]; [injection Q as -> ->; right; left; split; apply rst_refl|left; apply rst_step; exact I].
  - left. apply rst_refl.
  - destruct IH as [H|[[H1 H2]|[H1 H2]]]; [left; apply rst_sym; exact H| |]; apply rst_sym in H1, H2; auto.
  - destruct IH1 as [A|[[A1 A2]|[A1 A2]]]; destruct IH2 as [B|[[B1 B2]|[B1 B2]]].
    + left. apply rst_trans with y; assumption.
    + right. left. split; [apply rst_trans with y; assumption|assumption].
    + right. right. split; [apply rst_trans with y; assumption|assumption].
    + right. left. split; [assumption|apply rst_trans with y; assumption].
    + right. left. split; assumption.
    + left. apply rst_trans with a; assumption.
    + right. right. split; [assumption|apply rst_trans with y; assumption].
    + left. apply rst_trans with b; assumption.
    + right. right. split; assumption.
Qed.
Lemma connected_comp E a b : connected E a b <-> comp E a = comp E b.
Proof.
  split; [|apply comp_eq_connected].
  intro H. induction H as [x y I|x|x y _ IH|x y z _ IH1 _ IH2]; [apply comp_edge; exact I|reflexivity|now symmetry|congruence].
Qed.
Lemma acyclic_nil : acyclic [].
Proof. intros e a b H. destruct e; discriminate H. Qed.
Lemma skipn_incl {A} e (E : list A) x : In x (skipn (S e) E) -> In x (skipn e E).
Proof. revert E. induction e as [|e IH]; intros [|y E] H; try (now destruct H); [right; exact H|]. exact (IH E H). Qed.
Lemma acyclic_cons_iff a b E : acyclic ((a, b) :: E) <-> acyclic E /\ ~ connected E a b.
Proof.
  split.
  - intro H. destruct (acyclic_cons a b E H) as [H1 H2]. split; [exact H1|]. intro C. apply H2, connected_comp, C.
  - intros [H1 H2] [|e] c d He C.
    + injection He as -> ->. exact (H2 C).
    + cbn [nth_error] in He. cbn [firstn skipn app] in C.
      set (R := firstn e E ++ skipn (S e) E) in *.
      assert (Sub : incl R E).
      { intros x Hx. apply in_app_or in Hx. rewrite <- (firstn_skipn e E). apply in_or_app. destruct Hx as [Hx|Hx]; [now left|].
        right. apply skipn_incl. exact Hx. }
      pose proof (nth_error_In E e He) as HI.
      destruct (connected_split a b _ c d C) as [D|[[D1 D2]|[D1 D2]]].
      * exact (H1 e c d He D).
      * apply H2. apply rst_trans with c; [apply rst_sym, (connected_sub R E), D1; exact Sub|].
        apply rst_trans with d; [apply rst_step; exact HI|apply rst_sym, (connected_sub R E), D2; exact Sub].
      * apply H2. apply rst_trans with d; [apply (connected_sub R E), D2; exact Sub|].
        apply rst_trans with c; [apply rst_sym, rst_step; exact HI|apply (connected_sub R E), D1; exact Sub].
Qed.
Lemma connected_perm E E' a b : Permutation E E' -> connected E a b -> connected E' a b.
Proof. intro P. apply connected_sub. intros x. apply Permutation_in, P. Qed.
Lemma acyclic_perm E E' : Permutation E E' -> acyclic E -> acyclic E'.
Proof.
  intro P. induction P as [|[a b] E E' P IH|[a b] [c d] E|E E' E'' _ IH1 _ IH2]; auto.
  - rewrite !acyclic_cons_iff. intros [H1 H2]. split; [auto|]. intro C. apply H2. revert C. apply connected_perm. symmetry. exact P.
  - rewrite !acyclic_cons_iff. intros [[H1 H2] H3]. split; [split; [exact H1|]|].
    + intro C. apply H3. revert C. apply connected_sub. intros x Hx. now right.
    + intro C. destruct (connected_split c d E a b C) as [D|[[D1 D2]|[D1 D2]]]; [exact (H2 D)| |]; apply H3;
        (assert (MR : forall x y, connected E x y -> connected ((a, b) :: E) x y) by (intros u v; apply connected_sub; intros z Hz; now right));
        (assert (AB : connected ((a, b) :: E) a b) by (apply rst_step; now left)); apply MR in D1, D2.
      * apply rst_trans with a; [apply rst_sym; exact D1|]. apply rst_trans with b; [exact AB|apply rst_sym; exact D2].
      * apply rst_trans with b; [exact D2|]. apply rst_trans with a; [apply rst_sym; exact AB|exact D1].
Qed.
Lemma acyclic_app_r E F : acyclic (E ++ F) -> acyclic F.
Proof. induction E as [|[a b] E IH]; [auto|]. cbn [app]. rewrite acyclic_cons_iff. intros [H _]. exact (IH H). Qed.
Lemma acyclic_filter f E : acyclic E -> acyclic (filter f E).
Proof.
  induction E as [|[a b] E IH]; [auto|]. rewrite acyclic_cons_iff. intros [H1 H2]. cbn [filter].
  destruct (f (a, b)); [|exact (IH H1)]. rewrite acyclic_cons_iff. split; [exact (IH H1)|].
  intro C. apply H2. revert C. apply connected_sub. intros x Hx. apply filter_In in Hx. apply Hx.
Qed.
Lemma connected_sort E a b : connected (map sort_edge E) a b <-> connected E a b.
Proof.
  split; intro H; induction H as [x y I|x|x y _ IH|x y z _ IH1 _ IH2]; try (apply rst_refl); try (apply rst_sym; exact IH); try (apply rst_trans with y; assumption).
  - apply in_map_iff in I. destruct I as [[c d] [Q I]]. unfold sort_edge in Q. cbn [fst snd] in Q. injection Q as Q1 Q2.
    destruct (Nat.le_ge_cases c d) as [L|L]; [rewrite Nat.min_l in Q1 by exact L; rewrite Nat.max_r in Q2 by exact L; subst; apply rst_step; exact I|].
    rewrite Nat.min_r in Q1 by exact L. rewrite Nat.max_l in Q2 by exact L. subst. apply rst_sym, rst_step. exact I.
  - assert (I' : In (sort_edge (x, y)) (map sort_edge E)) by (apply in_map; exact I). unfold sort_edge in I'. cbn [fst snd] in I'.
    destruct (Nat.le_ge_cases x y) as [L|L].
    + rewrite Nat.min_l, Nat.max_r in I' by exact L. apply rst_step. exact I'.
    + rewrite Nat.min_r, Nat.max_l in I' by exact L. apply rst_sym, rst_step. exact I'.
Qed.
Lemma acyclic_sort E : acyclic E -> acyclic (map sort_edge E).
Proof.
  induction E as [|[a b] E IH]; [auto|]. cbn [map]. rewrite acyclic_cons_iff. intros [H1 H2].
  unfold sort_edge at 1. cbn [fst snd]. rewrite acyclic_cons_iff. split; [exact (IH H1)|]. rewrite connected_sort. intro C. apply H2.
  destruct (Nat.le_ge_cases a b) as [L|L].
  - rewrite Nat.min_l, Nat.max_r in C by exact L. exact C.
  - rewrite Nat.min_r, Nat.max_l in C by exact L. apply rst_sym. exact C.
Qed.
Lemma acyclic_loop E a : acyclic E -> ~ In (a, a) E.
Proof.
  intros H I. apply in_split in I. destruct I as [l1 [l2 ->]].
  apply (acyclic_perm _ ((a, a) :: l1 ++ l2)) in H; [|symmetry; apply Permutation_middle].
  apply acyclic_cons_iff in H. apply (proj2 H), rst_refl.
Qed.
Lemma acyclic_NoDup E : acyclic E -> NoDup E.
Proof.
  induction E as [|[a b] E IH]; [constructor|]. rewrite acyclic_cons_iff. intros [H1 H2]. constructor; [|exact (IH H1)].
  intro I. apply H2, rst_step, I.
Qed.

(** ** The greedy algorithm *)
Fixpoint greedy (L F : list (nat * nat)) : list (nat * nat) :=
  match L with
  | [] => []
  | (a, b) :: L' => if (comp F a =? comp F b)%nat then greedy L' F else (a, b) :: greedy L' ((a, b) :: F)
  end.
Lemma greedy_incl L F : incl (greedy L F) L.
Proof.
  revert F. induction L as [|[a b] L IH]; intro F; [intros x []|]. cbn [greedy].
  destruct (_ =? _)%nat; intros x Hx; [right; exact (IH F x Hx)|]. destruct Hx as [<-|Hx]; [now left|right; exact (IH _ x Hx)].
Qed.
Lemma greedy_acyclic L F : acyclic F -> acyclic (greedy L F ++ F).
Proof.
  revert F. induction L as [|[a b] L IH]; intros F H; [exact H|]. cbn [greedy].
  destruct (comp F a =? comp F b)%nat eqn:Q; [exact (IH F H)|]. apply Nat.eqb_neq in Q.
  assert (A : acyclic ((a, b) :: F)) by (apply acyclic_cons_iff; split; [exact H|rewrite connected_comp; exact Q]).
  apply (acyclic_perm (greedy L ((a, b) :: F) ++ (a, b) :: F)); [|exact (IH _ A)].
  cbn [app]. symmetry. apply Permutation_middle.
Qed.
Lemma greedy_spans L F a b : In (a, b) L -> connected (greedy L F ++ F) a b.
Proof.
  revert F. induction L as [|[c d] L IH]; intros F I; [destruct I|]. cbn [greedy].
  destruct (comp F c =? comp F d)%nat eqn:Q.
  - destruct I as [I|I]; [|exact (IH F I)]. injection I as -> ->. apply Nat.eqb_eq in Q. apply connected_comp in Q.
    revert Q. apply connected_sub. intros x Hx. apply in_or_app. now right.
  - destruct I as [I|I]; [injection I as -> ->; apply rst_step; now left|].
    generalize (IH ((c, d) :: F) I). apply connected_sub. intros x Hx. cbn [app]. apply in_app_or in Hx.
    destruct Hx as [Hx|[<-|Hx]]; [right; apply in_or_app; now left|now left|right; apply in_or_app; now right].
Qed.

Lemma total_perm M T T' : Permutation T T' -> total M T = total M T'.
Proof. intro P. unfold total. apply lsum_perm, Permutation_map, P. Qed.
Lemma total_cons M e T : total M (e :: T) = M (fst e) (snd e) + total M T.
Proof. reflexivity. Qed.
Lemma total_app M T T' : total M (T ++ T') = total M T + total M T'.
Proof. unfold total. rewrite map_app. apply lsum_app. Qed.

(** the edge that closes the connection *)
Lemma crossing F S a b : connected (S ++ F) a b -> ~ connected F a b ->
  exists S1 c d S2, S = S1 ++ (c, d) :: S2 /\ connected ((c, d) :: S2 ++ F) a b /\ ~ connected (S2 ++ F) a b.
Proof.
  induction S as [|[c d] S IH]; intros H N; [contradiction|].
  destruct (Nat.eq_dec (comp (S ++ F) a) (comp (S ++ F) b)) as [Q|Q].
  - apply connected_comp in Q. destruct (IH Q N) as (S1 & c' & d' & S2 & -> & H1 & H2). exists ((c, d) :: S1), c', d', S2. auto.
  - exists [], c, d, S. split; [reflexivity|]. split; [exact H|]. rewrite connected_comp. exact Q.
Qed.
Lemma exchange F S a b : acyclic (S ++ F) -> connected (S ++ F) a b -> ~ connected F a b ->
  exists S1 f S2, S = S1 ++ f :: S2 /\ acyclic ((a, b) :: (S1 ++ S2) ++ F) /\
    forall x y, connected (S ++ F) x y -> connected ((a, b) :: (S1 ++ S2) ++ F) x y.
Proof.
  intros HA HC HN. destruct (crossing F S a b HC HN) as (S1 & c & d & S2 & -> & H1 & H2).
  exists S1, (c, d), S2. split; [reflexivity|].
  set (R := (S1 ++ S2) ++ F).
  assert (P : Permutation ((S1 ++ (c, d) :: S2) ++ F) ((c, d) :: R)).
  { unfold R. rewrite <- !app_assoc. cbn [app]. symmetry. apply Permutation_middle. }
  pose proof (acyclic_perm _ _ P HA) as HA'. apply acyclic_cons_iff in HA'. destruct HA' as [HR HCD].
  assert (Sub : incl (S2 ++ F) R).
  { unfold R. intros x Hx. rewrite <- app_assoc. apply in_or_app. now right. }
  assert (K : (connected R a c /\ connected R d b) \/ (connected R a d /\ connected R c b)).
  { destruct (connected_split c d _ a b H1) as [D|[[D1 D2]|[D1 D2]]]; [contradiction| |].
    - left. split; apply (connected_sub (S2 ++ F)); assumption.
    - right. split; apply (connected_sub (S2 ++ F)); assumption. }
  assert (NAB : ~ connected R a b).
  { intro C. apply HCD. destruct K as [[K1 K2]|[K1 K2]].
    - apply rst_trans with a; [apply rst_sym; exact K1|]. apply rst_trans with b; [exact C|apply rst_sym; exact K2].
    - apply rst_trans with b; [exact K2|]. apply rst_trans with a; [apply rst_sym; exact C|exact K1]. }
  split; [apply acyclic_cons_iff; auto|].
  intros x y C. apply (connected_perm _ _ x y P) in C.
  assert (CD : connected ((a, b) :: R) c d).
  { assert (MR : forall x y, connected R x y -> connected ((a, b) :: R) x y) by (intros u v; apply connected_sub; intros z Hz; now right).
    assert (AB : connected ((a, b) :: R) a b) by (apply rst_step; now left).
    destruct K as [[K1 K2]|[K1 K2]]; apply MR in K1, K2.
    - apply rst_trans with a; [apply rst_sym; exact K1|]. apply rst_trans with b; [exact AB|apply rst_sym; exact K2].
    - apply rst_trans with b; [exact K2|]. apply rst_trans with a; [apply rst_sym; exact AB|exact K1]. }
  assert (MR : forall x y, connected R x y -> connected ((a, b) :: R) x y) by (intros u v; apply connected_sub; intros z Hz; now right).
  destruct (connected_split c d R x y C) as [D|[[D1 D2]|[D1 D2]]]; [apply MR; exact D| |].
  - apply rst_trans with c; [apply MR; exact D1|]. apply rst_trans with d; [exact CD|apply MR; exact D2].
  - apply rst_trans with d; [apply MR; exact D1|]. apply rst_trans with c; [apply rst_sym; exact CD|apply MR; exact D2].
Qed.

Inductive sorted (M : nat -> nat -> Qc) : list (nat * nat) -> Prop :=
| sorted_nil : sorted M []
| sorted_cons e L : Forall (fun f => M (fst e) (snd e) <= M (fst f) (snd f)) L -> sorted M L -> sorted M (e :: L).
Lemma greedy_minimal M L : sorted M L -> forall F S, acyclic (S ++ F) -> incl S L ->
  (forall a b, In (a, b) L -> connected (S ++ F) a b) -> total M (greedy L F) <= total M S.
Proof.
  induction 1 as [|[a b] L HM HS IH]; intros F S HA HI HC.
  - destruct S as [|e S]; [apply Qcle_refl|]. destruct (HI e (or_introl eq_refl)).
  - cbn [greedy fst snd] in *. destruct (comp F a =? comp F b)%nat eqn:Q.
    + apply Nat.eqb_eq, connected_comp in Q. apply IH; [exact HA| |intros c d I; apply HC; now right].
      intros e I. destruct (HI e I) as [<-|J]; [|exact J]. exfalso. apply in_split in I. destruct I as (S1 & S2 & ->).
      assert (P : Permutation ((S1 ++ (a, b) :: S2) ++ F) ((a, b) :: (S1 ++ S2) ++ F)).
      { rewrite <- !app_assoc. cbn [app]. symmetry. apply Permutation_middle. }
      apply (acyclic_perm _ _ P), acyclic_cons_iff, proj2 in HA. apply HA. revert Q. apply connected_sub. intros x Hx. apply in_or_app. now right.
    + apply Nat.eqb_neq in Q. assert (NF : ~ connected F a b) by (rewrite connected_comp; exact Q).
      assert (K : exists S1 f S2, S = S1 ++ f :: S2 /\ acyclic ((a, b) :: (S1 ++ S2) ++ F) /\ incl (S1 ++ S2) L /\ M a b <= M (fst f) (snd f) /\
                    forall x y, connected (S ++ F) x y -> connected ((a, b) :: (S1 ++ S2) ++ F) x y).
      { destruct (in_dec (fun x y : nat * nat => ltac:(decide equality; apply Nat.eq_dec)) (a, b) S) as [I|NI].
        - apply in_split in I. destruct I as (S1 & S2 & ->). exists S1, (a, b), S2. split; [reflexivity|].
          assert (P : Permutation ((S1 ++ (a, b) :: S2) ++ F) ((a, b) :: (S1 ++ S2) ++ F)).
          { rewrite <- !app_assoc. cbn [app]. symmetry. apply Permutation_middle. }
          pose proof (acyclic_perm _ _ P HA) as HA'. split; [exact HA'|]. split.
          + intros e I. assert (I' : In e (S1 ++ (a, b) :: S2)) by (apply in_app_or in I; apply in_or_app; destruct I; [now left|right; now right]).
            destruct (HI e I') as [<-|J]; [|exact J]. exfalso. apply acyclic_cons_iff, proj2 in HA'. apply HA', rst_step. apply in_or_app. now left.
          + split; [apply Qcle_refl|]. intros x y. apply connected_perm, P.
        - destruct (exchange F S a b HA (HC a b (or_introl eq_refl)) NF) as (S1 & f & S2 & E & H1 & H2).
          exists S1, f, S2. split; [exact E|]. split; [exact H1|].
          assert (IL : incl S L). { intros e I. destruct (HI e I) as [<-|J]; [contradiction|exact J]. }
          split; [|split; [|exact H2]].
          + intros e I. apply IL. rewrite E. apply in_app_or in I. apply in_or_app. destruct I; [now left|right; now right].
          + assert (I : In f L) by (apply IL; rewrite E; apply in_or_app; right; now left).
            exact (proj1 (Forall_forall _ _) HM f I). }
      destruct K as (S1 & f & S2 & -> & H1 & H2 & H3 & H4).
      rewrite total_cons. cbn [fst snd].
      rewrite (total_perm M (S1 ++ f :: S2) (f :: S1 ++ S2)) by (symmetry; apply Permutation_middle). rewrite total_cons.
      apply Qcplus_le_compat; [exact H3|]. apply IH; [|exact H2|].
      * apply (acyclic_perm ((a, b) :: (S1 ++ S2) ++ F)); [apply Permutation_middle|exact H1].
      * intros c d I. apply (connected_perm ((a, b) :: (S1 ++ S2) ++ F)); [apply Permutation_middle|]. apply H4, HC. now right.
Qed.

(** sorting by insertion *)
Fixpoint insert_edge (M : nat -> nat -> Qc) (e : nat * nat) (L : list (nat * nat)) : list (nat * nat) :=
  match L with
  | [] => [e]
  | f :: L' => if Qcleb (M (fst e) (snd e)) (M (fst f) (snd f)) then e :: f :: L' else f :: insert_edge M e L'
  end.
Definition sort_edges (M : nat -> nat -> Qc) (L : list (nat * nat)) : list (nat * nat) := fold_right (insert_edge M) [] L.
Lemma insert_perm M e L : Permutation (insert_edge M e L) (e :: L).
Proof.
  induction L as [|f L IH]; [reflexivity|]. cbn [insert_edge]. destruct (Qcleb _ _); [reflexivity|].
  rewrite IH. apply perm_swap.
Qed.
Lemma sort_perm M L : Permutation (sort_edges M L) L.
Proof. induction L as [|e L IH]; [reflexivity|]. cbn [sort_edges fold_right]. fold (sort_edges M L). rewrite insert_perm. now apply perm_skip. Qed.
Lemma insert_sorted M e L : sorted M L -> sorted M (insert_edge M e L).
Proof.
  induction 1 as [|f L HM HS IH]; [constructor; constructor|]. cbn [insert_edge]. destruct (Qcleb (M (fst e) (snd e)) (M (fst f) (snd f))) eqn:Q.
  - apply Qcleb_le in Q. constructor; [|constructor; assumption]. constructor; [exact Q|].
    revert HM. apply Forall_impl. intros g Hg. apply Qcle_trans with (M (fst f) (snd f)); assumption.
  - apply Qcleb_gt in Q. constructor; [|exact IH]. apply Forall_forall. intros g Hg. apply (Permutation_in _ (insert_perm M e L)) in Hg.
    destruct Hg as [<-|Hg]; [apply Qclt_le_weak; exact Q|exact (proj1 (Forall_forall _ _) HM g Hg)].
Qed.
Lemma sort_sorted M L : sorted M (sort_edges M L).
Proof. induction L as [|e L IH]; [constructor|]. apply insert_sorted, IH. Qed.

Definition entries (n : nat) (M : nat -> nat -> Qc) : list (nat * nat) :=
  filter (fun e => negb (Qceqb (M (fst e) (snd e)) 0)) (flat_map (fun i => map (fun j => (i, j)) (seq 0 n)) (seq 0 n)).
Lemma entries_in n M a b : In (a, b) (entries n M) <-> (a < n)%nat /\ (b < n)%nat /\ M a b <> 0.
Proof.
  unfold entries. rewrite filter_In, in_flat_map. cbn [fst snd]. split.
  - intros [(i & Hi & Hj) H]. apply in_map_iff in Hj. destruct Hj as (j & Q & Hj). injection Q as <- <-.
    apply in_seq in Hi, Hj. split; [lia|]. split; [lia|]. intro E. rewrite E, Qceqb_refl in H. discriminate H.
  - intros (Ha & Hb & H). split.
    + exists a. split; [apply in_seq; lia|]. apply in_map_iff. exists b. split; [reflexivity|apply in_seq; lia].
    + destruct (Qceqb_spec (M a b) 0); [contradiction|reflexivity].
Qed.
(** the entries of the matrix in increasing order, taken if they do not close a cycle *)
Definition kruskal : spanning_tree := fun n M => greedy (sort_edges M (entries n M)) [].
Lemma kruskal_minimum n M : minimum_spanning kruskal n M.
Proof.
  set (L := sort_edges M (entries n M)).
  assert (HL : forall a b, In (a, b) L <-> (a < n)%nat /\ (b < n)%nat /\ M a b <> 0).
  { intros a b. rewrite <- entries_in. unfold L. split; apply Permutation_in; [|symmetry]; apply sort_perm. }
  unfold minimum_spanning, kruskal. fold L. split; [split; [|split]|].
  - apply Forall_forall. intros [a b] I. apply HL, (greedy_incl L [] (a, b) I).
  - rewrite <- (app_nil_r (greedy L [])). apply greedy_acyclic, acyclic_nil.
  - intros a b Ha Hb HM. rewrite <- (app_nil_r (greedy L [])). apply greedy_spans, HL. auto.
  - intros T (H1 & H2 & H3). apply (greedy_minimal M L (sort_sorted M _)).
    + rewrite app_nil_r. exact H2.
    + intros [a b] I. apply HL. exact (proj1 (Forall_forall _ _) H1 (a, b) I).
    + intros a b I. rewrite app_nil_r. apply HL in I. destruct I as (Ha & Hb & HM). exact (H3 a b Ha Hb HM).
Qed.

(** every acyclic edge set extends to a spanning forest *)
Lemma extend_forest n M T : Forall (fun e => (fst e < n)%nat /\ (snd e < n)%nat /\ M (fst e) (snd e) <> 0) T -> acyclic T ->
  exists T', spanning_forest n M (T' ++ T) /\ Forall (fun e => (fst e < n)%nat /\ (snd e < n)%nat /\ M (fst e) (snd e) <> 0) T'.
Proof.
  intros HT HA. exists (greedy (entries n M) T).
  assert (HG : Forall (fun e => (fst e < n)%nat /\ (snd e < n)%nat /\ M (fst e) (snd e) <> 0) (greedy (entries n M) T)).
  { apply Forall_forall. intros [a b] I. apply entries_in, (greedy_incl _ T (a, b) I). }
  split; [|exact HG]. split; [apply Forall_app; auto|]. split; [apply greedy_acyclic, HA|].
  intros a b Ha Hb HM. apply greedy_spans, entries_in. auto.
Qed.
