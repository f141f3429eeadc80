(** Lemmas about lists of bookkeeping actions. *)
From Coq Require Import Sorted Lia.
From Verif Require Import Base.QcBase Base.Sums Model.Curves Model.PlotLearning Spec.CurveSpec Proofs.Arrays.

Definition isS (a : act) : bool := match a with AStamp => true | _ => false end.
Definition isO (a : act) : bool := match a with AAppendLocal | AAppendObj _ | AAppendLast => true | _ => false end.
Definition isP (a : act) : bool := match a with APrimal _ => true | _ => false end.
Definition isC (a : act) : bool := match a with ACached _ => true | _ => false end.
Definition isL (a : act) : bool := match a with ALoss _ => true | _ => false end.
Definition isI (a : act) : bool := match a with ALossInit => true | _ => false end.
Definition cnt (f : act -> bool) (l : list act) : nat := length (filter f l).
Lemma cnt_app f a b : cnt f (a ++ b) = (cnt f a + cnt f b)%nat.
Proof. unfold cnt. rewrite filter_app, app_length. reflexivity. Qed.
Lemma cnt_cons f a l : cnt f (a :: l) = ((if f a then 1 else 0) + cnt f l)%nat.
Proof. unfold cnt. cbn. destruct (f a); reflexivity. Qed.

Section P.
Variable now : nat -> Qc.
Variable lg : bool.
Notation act1 := (act1 now lg).
Notation acts := (acts now lg).

Lemma acts_app l1 l2 r : acts (l1 ++ l2) r = bind (acts l1 r) (acts l2).
Proof.
  revert r; induction l1 as [|a l1 IH]; intros r; cbn; [reflexivity|].
  destruct (act1 a r); cbn; [apply IH|reflexivity].
Qed.

Lemma act1_times a r r' ts : act1 a r = Ok r' -> b_times (r_book r) = Some ts ->
  exists e, b_times (r_book r') = Some (ts ++ e) /\ length e = (if isS a then 1 else 0)%nat.
Proof.
  destruct r as [[bt bo bp bc bl] k ob vb lo]; cbn; intros H ->.
  destruct a; cbn in H.
  all: try (injection H as <-; cbn; exists []; rewrite app_nil_r; auto; fail).
  - destruct ts as [|t0 ts]; try discriminate H. injection H as <-. eexists [_]. split; reflexivity.
  - destruct ob, bo; cbn in H; try discriminate H. injection H as <-. exists []. rewrite app_nil_r. auto.
  - destruct bo; cbn in H; try discriminate H. injection H as <-. exists []. rewrite app_nil_r. auto.
  - destruct bo as [[|o1 o2]|]; cbn in H; try discriminate H. injection H as <-. exists []. rewrite app_nil_r. auto.
  - destruct bp; cbn in H; try discriminate H. injection H as <-. exists []. rewrite app_nil_r. auto.
  - destruct bc; cbn in H; try discriminate H. injection H as <-. exists []. rewrite app_nil_r. auto.
  - destruct bl; cbn in H; try discriminate H. injection H as <-. exists []. rewrite app_nil_r. auto.
  - exists []. rewrite app_nil_r. destruct lg; injection H as <-; auto.
  - destruct vb; try discriminate H. injection H as <-. exists []. rewrite app_nil_r. auto.
  - discriminate H.
Qed.
Lemma last_entry_ok {A} (o : list A) v : last_entry o = Ok v -> o <> [].
Proof. destruct o; cbn; [discriminate|intros _ E; discriminate E]. Qed.
Lemma act1_obj a r r' o : act1 a r = Ok r' -> b_obj (r_book r) = Some o ->
  exists e, b_obj (r_book r') = Some (o ++ e) /\ length e = (if isO a then 1 else 0)%nat.
Proof.
  destruct r as [[bt bo bp bc bl] k ob vb lo]; cbn; intros H ->.
  destruct a; cbn in H.
  all: try (injection H as <-; cbn; exists []; rewrite app_nil_r; auto; fail).
  - destruct bt as [[|t0 ts]|]; try discriminate H. injection H as <-. exists []. rewrite app_nil_r. auto.
  - destruct ob; try discriminate H. injection H as <-. exists [q]. auto.
  - injection H as <-. exists [v]. auto.
  - destruct o as [|o1 o2]; cbn in H; [discriminate|]. injection H as <-. eexists [_]. split; reflexivity.
  - destruct bp; cbn in H; try discriminate H. injection H as <-. exists []. rewrite app_nil_r. auto.
  - destruct bc; cbn in H; try discriminate H. injection H as <-. exists []. rewrite app_nil_r. auto.
  - destruct bl; cbn in H; try discriminate H. injection H as <-. exists []. rewrite app_nil_r. auto.
  - exists []. rewrite app_nil_r. destruct lg; injection H as <-; auto.
  - destruct vb; try discriminate H. injection H as <-. exists []. rewrite app_nil_r. auto.
  - discriminate H.
Qed.
Lemma act1_primal a r r' o : act1 a r = Ok r' -> b_primal (r_book r) = Some o ->
  exists e, b_primal (r_book r') = Some (o ++ e) /\ length e = (if isP a then 1 else 0)%nat.
Proof.
  destruct r as [[bt bo bp bc bl] k ob vb lo]; cbn; intros H ->.
  destruct a; cbn in H.
  all: try (injection H as <-; cbn; exists []; rewrite app_nil_r; auto; fail).
  - destruct bt as [[|t0 ts]|]; try discriminate H. injection H as <-. exists []. rewrite app_nil_r. auto.
  - destruct ob, bo; cbn in H; try discriminate H. injection H as <-. exists []. rewrite app_nil_r. auto.
  - destruct bo; cbn in H; try discriminate H. injection H as <-. exists []. rewrite app_nil_r. auto.
  - destruct bo as [[|o1 o2]|]; cbn in H; try discriminate H. injection H as <-. exists []. rewrite app_nil_r. auto.
  - injection H as <-. exists [v]. auto.
  - destruct bc; cbn in H; try discriminate H. injection H as <-. exists []. rewrite app_nil_r. auto.
  - destruct bl; cbn in H; try discriminate H. injection H as <-. exists []. rewrite app_nil_r. auto.
  - exists []. rewrite app_nil_r. destruct lg; injection H as <-; auto.
  - destruct vb; try discriminate H. injection H as <-. exists []. rewrite app_nil_r. auto.
  - discriminate H.
Qed.
Lemma act1_cached a r r' o : act1 a r = Ok r' -> b_cached (r_book r) = Some o ->
  exists e, b_cached (r_book r') = Some (o ++ e) /\ length e = (if isC a then 1 else 0)%nat.
Proof.
  destruct r as [[bt bo bp bc bl] k ob vb lo]; cbn; intros H ->.
  destruct a; cbn in H.
  all: try (injection H as <-; cbn; exists []; rewrite app_nil_r; auto; fail).
  - destruct bt as [[|t0 ts]|]; try discriminate H. injection H as <-. exists []. rewrite app_nil_r. auto.
  - destruct ob, bo; cbn in H; try discriminate H. injection H as <-. exists []. rewrite app_nil_r. auto.
  - destruct bo; cbn in H; try discriminate H. injection H as <-. exists []. rewrite app_nil_r. auto.
  - destruct bo as [[|o1 o2]|]; cbn in H; try discriminate H. injection H as <-. exists []. rewrite app_nil_r. auto.
  - destruct bp; cbn in H; try discriminate H. injection H as <-. exists []. rewrite app_nil_r. auto.
  - injection H as <-. exists [c]. auto.
  - destruct bl; cbn in H; try discriminate H. injection H as <-. exists []. rewrite app_nil_r. auto.
  - exists []. rewrite app_nil_r. destruct lg; injection H as <-; auto.
  - destruct vb; try discriminate H. injection H as <-. exists []. rewrite app_nil_r. auto.
  - discriminate H.
Qed.
Definition losses (b : book) : list Qc := match b_loss b with Some l => l | None => [] end.
Lemma act1_loss a r r' : act1 a r = Ok r' ->
  exists e, losses (r_book r') = losses (r_book r) ++ e /\ length e = (if isL a then 1 else 0)%nat /\
  ((isI a = true \/ b_loss (r_book r) <> None) -> b_loss (r_book r') <> None) /\
  (isI a = false -> b_loss (r_book r) = None -> b_loss (r_book r') = None).
Proof.
  unfold losses. destruct r as [[bt bo bp bc bl] k ob vb lo]; cbn; intros H.
  destruct a; cbn in H.
  all: try (injection H as <-; cbn; exists []; rewrite app_nil_r; intuition congruence).
  - destruct bt as [[|t0 ts]|]; try discriminate H. injection H as <-. exists []. rewrite app_nil_r. cbn; intuition congruence.
  - destruct ob, bo; cbn in H; try discriminate H. injection H as <-. exists []. rewrite app_nil_r. cbn; intuition congruence.
  - destruct bo; cbn in H; try discriminate H. injection H as <-. exists []. rewrite app_nil_r. cbn; intuition congruence.
  - destruct bo as [[|o1 o2]|]; cbn in H; try discriminate H. injection H as <-. exists []. rewrite app_nil_r. cbn; intuition congruence.
  - destruct bp; cbn in H; try discriminate H. injection H as <-. exists []. rewrite app_nil_r. cbn; intuition congruence.
  - destruct bc; cbn in H; try discriminate H. injection H as <-. exists []. rewrite app_nil_r. cbn; intuition congruence.
  - injection H as <-. exists []. rewrite app_nil_r. destruct bl; cbn; intuition congruence.
  - destruct bl; cbn in H; try discriminate H. injection H as <-. exists [v]. cbn; intuition congruence.
  - exists []. rewrite app_nil_r. destruct lg; injection H as <-; cbn; intuition congruence.
  - destruct vb; try discriminate H. injection H as <-. exists []. rewrite app_nil_r. cbn; intuition congruence.
  - discriminate H.
Qed.
Lemma act1_none a r r' : act1 a r = Ok r' ->
  (b_primal (r_book r) = None -> b_primal (r_book r') = None /\ isP a = false) /\
  (b_cached (r_book r) = None -> b_cached (r_book r') = None /\ isC a = false) /\
  (b_obj (r_book r) = None -> b_obj (r_book r') = None).
Proof.
  destruct r as [[bt bo bp bc bl] k ob vb lo]; cbn; intros H.
  destruct a; cbn in H.
  all: try (injection H as <-; cbn; auto; fail).
  - destruct bt as [[|t0 ts]|]; try discriminate H. injection H as <-. cbn; auto.
  - destruct ob, bo; cbn in H; try discriminate H. injection H as <-. cbn; intuition congruence.
  - destruct bo; cbn in H; try discriminate H. injection H as <-. cbn; intuition congruence.
  - destruct bo as [[|o1 o2]|]; cbn in H; try discriminate H. injection H as <-. cbn; intuition congruence.
  - destruct bp; cbn in H; try discriminate H. injection H as <-. cbn; intuition congruence.
  - destruct bc; cbn in H; try discriminate H. injection H as <-. cbn; intuition congruence.
  - destruct bl; cbn in H; try discriminate H. injection H as <-. cbn; intuition congruence.
  - destruct lg; injection H as <-; cbn; auto.
  - destruct vb; try discriminate H. injection H as <-. cbn; auto.
  - discriminate H.
Qed.

Lemma bind_inv {A B} (x : res A) (f : A -> res B) y : bind x f = Ok y -> exists a, x = Ok a /\ f a = Ok y.
Proof. destruct x; cbn; [eauto|discriminate]. Qed.

Lemma acts_times l : forall r r' ts, acts l r = Ok r' -> b_times (r_book r) = Some ts ->
  exists e, b_times (r_book r') = Some (ts ++ e) /\ length e = cnt isS l.
Proof.
  induction l as [|a l IH]; intros r r' ts H E.
  - injection H as <-. exists []. rewrite app_nil_r. auto.
  - cbn in H. apply bind_inv in H as (r1 & H1 & H2). destruct (act1_times _ _ _ _ H1 E) as (e & Ee & Le).
    destruct (IH _ _ _ H2 Ee) as (e2 & E2 & L2). exists (e ++ e2). rewrite app_assoc. split; [exact E2|].
    rewrite app_length, cnt_cons. lia.
Qed.
Lemma acts_obj l : forall r r' ts, acts l r = Ok r' -> b_obj (r_book r) = Some ts ->
  exists e, b_obj (r_book r') = Some (ts ++ e) /\ length e = cnt isO l.
Proof.
  induction l as [|a l IH]; intros r r' ts H E.
  - injection H as <-. exists []. rewrite app_nil_r. auto.
  - cbn in H. apply bind_inv in H as (r1 & H1 & H2). destruct (act1_obj _ _ _ _ H1 E) as (e & Ee & Le).
    destruct (IH _ _ _ H2 Ee) as (e2 & E2 & L2). exists (e ++ e2). rewrite app_assoc. split; [exact E2|].
    rewrite app_length, cnt_cons. lia.
Qed.
Lemma acts_primal l : forall r r' ts, acts l r = Ok r' -> b_primal (r_book r) = Some ts ->
  exists e, b_primal (r_book r') = Some (ts ++ e) /\ length e = cnt isP l.
Proof.
  induction l as [|a l IH]; intros r r' ts H E.
  - injection H as <-. exists []. rewrite app_nil_r. auto.
  - cbn in H. apply bind_inv in H as (r1 & H1 & H2). destruct (act1_primal _ _ _ _ H1 E) as (e & Ee & Le).
    destruct (IH _ _ _ H2 Ee) as (e2 & E2 & L2). exists (e ++ e2). rewrite app_assoc. split; [exact E2|].
    rewrite app_length, cnt_cons. lia.
Qed.
Lemma acts_cached l : forall r r' ts, acts l r = Ok r' -> b_cached (r_book r) = Some ts ->
  exists e, b_cached (r_book r') = Some (ts ++ e) /\ length e = cnt isC l.
Proof.
  induction l as [|a l IH]; intros r r' ts H E.
  - injection H as <-. exists []. rewrite app_nil_r. auto.
  - cbn in H. apply bind_inv in H as (r1 & H1 & H2). destruct (act1_cached _ _ _ _ H1 E) as (e & Ee & Le).
    destruct (IH _ _ _ H2 Ee) as (e2 & E2 & L2). exists (e ++ e2). rewrite app_assoc. split; [exact E2|].
    rewrite app_length, cnt_cons. lia.
Qed.
Lemma acts_loss l : forall r r', acts l r = Ok r' ->
  exists e, losses (r_book r') = losses (r_book r) ++ e /\ length e = cnt isL l.
Proof.
  induction l as [|a l IH]; intros r r' H.
  - injection H as <-. exists []. rewrite app_nil_r. auto.
  - cbn in H. apply bind_inv in H as (r1 & H1 & H2). destruct (act1_loss _ _ _ H1) as (e & Ee & Le & _).
    destruct (IH _ _ H2) as (e2 & E2 & L2). exists (e ++ e2). rewrite E2, Ee, app_assoc. split; [reflexivity|].
    rewrite app_length, cnt_cons. lia.
Qed.
Lemma acts_loss_some l : forall r r', acts l r = Ok r' -> (cnt isI l <> 0%nat \/ b_loss (r_book r) <> None) ->
  b_loss (r_book r') <> None.
Proof.
  induction l as [|a l IH]; intros r r' H C.
  - injection H as <-. destruct C; [cbn in H; congruence|auto].
  - cbn in H. apply bind_inv in H as (r1 & H1 & H2). destruct (act1_loss _ _ _ H1) as (e & _ & _ & S & _).
    rewrite cnt_cons in C. apply (IH _ _ H2). destruct (isI a); [right; apply S; auto|].
    destruct C as [C|C]; [left; exact C|right; apply S; auto].
Qed.
Lemma acts_loss_none l : forall r r', acts l r = Ok r' -> cnt isI l = 0%nat -> b_loss (r_book r) = None ->
  b_loss (r_book r') = None.
Proof.
  induction l as [|a l IH]; intros r r' H C E.
  - injection H as <-. auto.
  - cbn in H. apply bind_inv in H as (r1 & H1 & H2). destruct (act1_loss _ _ _ H1) as (e & _ & _ & _ & S).
    rewrite cnt_cons in C. apply (IH _ _ H2); destruct (isI a); try discriminate C; auto.
Qed.
Lemma acts_none l : forall r r', acts l r = Ok r' ->
  (b_primal (r_book r) = None -> b_primal (r_book r') = None) /\
  (b_cached (r_book r) = None -> b_cached (r_book r') = None) /\
  (b_obj (r_book r) = None -> b_obj (r_book r') = None).
Proof.
  induction l as [|a l IH]; intros r r' H.
  - injection H as <-. auto.
  - cbn in H. apply bind_inv in H as (r1 & H1 & H2). destruct (act1_none _ _ _ H1) as (A & B & C).
    destruct (IH _ _ H2) as (A2 & B2 & C2). repeat split; intros E.
    + apply A2, A, E. + apply B2, B, E. + apply C2, C, E.
Qed.

(** nothing is lost *)
Lemma prefix_refl {A} (a : option (list A)) : prefix_of a a.
Proof. destruct a; cbn; [exists []; rewrite app_nil_r; reflexivity|exact I]. Qed.
Lemma prefix_trans {A} (a b c : option (list A)) : prefix_of a b -> prefix_of b c -> prefix_of a c.
Proof.
  destruct a; cbn; [|auto]. intros (e & ->) (f & ->). exists (e ++ f). rewrite app_assoc. reflexivity.
Qed.
Lemma grows_refl b : book_grows b b.
Proof. repeat split; apply prefix_refl. Qed.
Lemma grows_trans a b c : book_grows a b -> book_grows b c -> book_grows a c.
Proof. intros (A & B & C & D & E) (A' & B' & C' & D' & E'). repeat split; eapply prefix_trans; eauto. Qed.
Lemma act1_grows a r r' : act1 a r = Ok r' -> book_grows (r_book r) (r_book r').
Proof.
  intros H. repeat split.
  - destruct (b_times (r_book r)) eqn:E; cbn; auto. destruct (act1_times _ _ _ _ H E) as (e & Ee & _); eauto.
  - destruct (b_obj (r_book r)) eqn:E; cbn; auto. destruct (act1_obj _ _ _ _ H E) as (e & Ee & _); eauto.
  - destruct (b_primal (r_book r)) eqn:E; cbn; auto. destruct (act1_primal _ _ _ _ H E) as (e & Ee & _); eauto.
  - destruct (b_cached (r_book r)) eqn:E; cbn; auto. destruct (act1_cached _ _ _ _ H E) as (e & Ee & _); eauto.
  - destruct (act1_loss _ _ _ H) as (e & Ee & _ & S & _). unfold losses in Ee.
    destruct (b_loss (r_book r)); cbn; auto. destruct (b_loss (r_book r')); [subst; eauto|].
    exfalso; apply S; auto; right; discriminate.
Qed.
Lemma acts_grows l : forall r r', acts l r = Ok r' -> book_grows (r_book r) (r_book r').
Proof.
  induction l as [|a l IH]; intros r r' H.
  - injection H as <-. apply grows_refl.
  - cbn in H. apply bind_inv in H as (r1 & H1 & H2). eapply grows_trans; [exact (act1_grows _ _ _ H1)|eauto].
Qed.

(** the calls of the logger *)
Definition ids (l : list act) : list (option nat) := flat_map (fun a => match a with ALog i => [i] | _ => [] end) l.
Lemma ids_app a b : ids (a ++ b) = ids a ++ ids b.
Proof. unfold ids. apply flat_map_app. Qed.
Lemma act1_log a r r' : act1 a r = Ok r' ->
  r_log r' = r_log r ++ (if lg then map (fun i => (i, r_book r)) (ids [a]) else []).
Proof.
  destruct r as [[bt bo bp bc bl] k ob vb lo]; cbn; intros H.
  destruct a; cbn in H.
  all: try (injection H as <-; cbn; destruct lg; rewrite app_nil_r; reflexivity).
  - destruct bt as [[|t0 ts]|]; try discriminate H. injection H as <-. cbn; destruct lg; rewrite app_nil_r; reflexivity.
  - destruct ob, bo; cbn in H; try discriminate H. injection H as <-. cbn; destruct lg; rewrite app_nil_r; reflexivity.
  - destruct bo; cbn in H; try discriminate H. injection H as <-. cbn; destruct lg; rewrite app_nil_r; reflexivity.
  - destruct bo as [[|o1 o2]|]; cbn in H; try discriminate H. injection H as <-. cbn; destruct lg; rewrite app_nil_r; reflexivity.
  - destruct bp; cbn in H; try discriminate H. injection H as <-. cbn; destruct lg; rewrite app_nil_r; reflexivity.
  - destruct bc; cbn in H; try discriminate H. injection H as <-. cbn; destruct lg; rewrite app_nil_r; reflexivity.
  - destruct bl; cbn in H; try discriminate H. injection H as <-. cbn; destruct lg; rewrite app_nil_r; reflexivity.
  - destruct lg; injection H as <-; cbn; [reflexivity|rewrite app_nil_r; reflexivity].
  - destruct vb; try discriminate H. injection H as <-. cbn; destruct lg; rewrite app_nil_r; reflexivity.
  - discriminate H.
Qed.
Lemma acts_log l : forall r r', acts l r = Ok r' ->
  exists calls, r_log r' = r_log r ++ calls /\ map fst calls = (if lg then ids l else []) /\
    Forall (fun c => book_grows (snd c) (r_book r')) calls.
Proof.
  induction l as [|a l IH]; intros r r' H.
  - injection H as <-. exists []. rewrite app_nil_r. destruct lg; auto.
  - cbn in H. apply bind_inv in H as (r1 & H1 & H2). pose proof (act1_log _ _ _ H1) as E1.
    destruct (IH _ _ H2) as (c & E2 & M & F). rewrite E1, <- app_assoc in E2. eexists. split; [exact E2|].
    pose proof (act1_grows _ _ _ H1) as G1. pose proof (acts_grows _ _ _ H2) as G2.
    split.
    + rewrite map_app, M. destruct lg; [|reflexivity]. rewrite map_map. change (a :: l) with ([a] ++ l).
      rewrite ids_app. f_equal. rewrite map_id. reflexivity.
    + apply Forall_app. split; [|exact F]. destruct lg; [|constructor]. apply Forall_forall. intros x Hx.
      apply in_map_iff in Hx as (i & <- & _). cbn. eapply grows_trans; eauto.
Qed.

(** the clock *)
Lemma act1_clock a r r' : act1 a r = Ok r' -> r_clock r' = (r_clock r + if isS a then 1 else 0)%nat.
Proof.
  destruct r as [[bt bo bp bc bl] k ob vb lo]; cbn; intros H.
  destruct a; cbn in H.
  all: try (injection H as <-; cbn; lia).
  - destruct bt as [[|t0 ts]|]; try discriminate H. injection H as <-. cbn; lia.
  - destruct ob, bo; cbn in H; try discriminate H. injection H as <-. cbn; lia.
  - destruct bo; cbn in H; try discriminate H. injection H as <-. cbn; lia.
  - destruct bo as [[|o1 o2]|]; cbn in H; try discriminate H. injection H as <-. cbn; lia.
  - destruct bp; cbn in H; try discriminate H. injection H as <-. cbn; lia.
  - destruct bc; cbn in H; try discriminate H. injection H as <-. cbn; lia.
  - destruct bl; cbn in H; try discriminate H. injection H as <-. cbn; lia.
  - destruct lg; injection H as <-; cbn; lia.
  - destruct vb; try discriminate H. injection H as <-. cbn; lia.
  - discriminate H.
Qed.
Lemma act1_stamp a r r' t0 ts : act1 a r = Ok r' -> b_times (r_book r) = Some (t0 :: ts) ->
  b_times (r_book r') = Some (t0 :: ts ++ if isS a then [now (r_clock r) - t0] else []).
Proof.
  intros H E. destruct a; try (destruct (act1_times _ _ _ _ H E) as (e & -> & L); destruct e; [|discriminate L]; reflexivity).
  - cbn in H. rewrite E in H. injection H as <-. reflexivity.
  - discriminate H.
Qed.
Lemma sorted_app {A} (R : A -> A -> Prop) (l : list A) x : StronglySorted R l -> Forall (fun y => R y x) l -> StronglySorted R (l ++ [x]).
Proof.
  induction l as [|a l IH]; intros S F; cbn.
  - constructor; constructor.
  - inversion S; inversion F; subst. constructor; [auto|]. apply Forall_app. split; auto.
Qed.
Hypothesis mono : clock now.
Lemma act1_ordered a r r' : act1 a r = Ok r' -> stamps_ordered now (r_clock r) (r_book r) -> stamps_ordered now (r_clock r') (r_book r').
Proof.
  intros H (t0 & ts & E & T0 & Srt & F). pose proof (act1_stamp _ _ _ _ _ H E) as E'. rewrite (act1_clock _ _ _ H).
  exists t0. eexists. split; [exact E'|]. destruct (isS a) eqn:Ea.
  - assert (M : now (r_clock r) <= now (r_clock r + 1)%nat) by (apply mono; lia).
    split; [clear - M T0; qclra|]. split.
    + apply sorted_app; [exact Srt|]. eapply Forall_impl; [|exact F]. cbn; intros ? (_ & ?); auto.
    + apply Forall_app. split.
      * eapply Forall_impl; [|exact F]. cbn; intros x (? & ?); split; auto. clear - M H1. qclra.
      * constructor; [|constructor]. split; [clear - T0; qclra|clear - M; qclra].
  - rewrite app_nil_r, Nat.add_0_r. auto.
Qed.
Lemma acts_ordered l : forall r r', acts l r = Ok r' -> stamps_ordered now (r_clock r) (r_book r) -> stamps_ordered now (r_clock r') (r_book r').
Proof.
  induction l as [|a l IH]; intros r r' H E.
  - injection H as <-. exact E.
  - cbn in H. apply bind_inv in H as (r1 & H1 & H2). eapply IH; [exact H2|]. eapply act1_ordered; eauto.
Qed.
End P.
