From Coq Require Import ZArith Permutation.
From Verif Require Import Model.Predict Spec.PredictSpec Proofs.Arrays Proofs.LossProofs Proofs.PerceptronProofs Proofs.OneSlackCache Proofs.UnstructuredProofs Proofs.UnstructuredProofs2 Proofs.QPProofs.

(** ** Parallel *)
Lemma set_slot_length {B} i (b : B) s : length (set_slot i b s) = length s.
Proof. revert i; induction s as [|a s IH]; intros [|i]; simpl; auto. Qed.
Lemma set_slot_nth {B} i (b : B) s j : (i < length s)%nat -> nth j (set_slot i b s) None = if (j =? i)%nat then Some b else nth j s None.
Proof.
  revert i j; induction s as [|a s IH]; intros [|i] [|j] H; simpl in *; try lia; auto. rewrite IH by lia. reflexivity.
Qed.
Lemma run_ok {A B} (f : A -> res B) l r : Forall2 (fun a b => f a = Ok b) l r -> forall order s, length s = length l ->
  exists s', run_tasks order f l s = Ok s' /\ length s' = length l /\
    forall j, (j < length l)%nat -> nth j s' None = if in_dec Nat.eq_dec j order then nth_error r j else nth j s None.
Proof.
  intros F. assert (LR := Forall2_len _ _ _ F). assert (N : forall i a, nth_error l i = Some a -> exists b, nth_error r i = Some b /\ f a = Ok b).
  { clear LR. induction F as [|a b l r H F IH]; intros [|i] x E; simpl in E; try discriminate.
    - injection E as <-. exists b. auto.
    - destruct (IH i x E) as [b' P]. exists b'. exact P. }
  induction order as [|i order IH]; intros s L.
  - exists s. split; [reflexivity|]. split; [exact L|]. intros j Hj. destruct (in_dec Nat.eq_dec j []) as [[]|]. reflexivity.
  - cbn [run_tasks]. destruct (nth_error l i) as [a|] eqn:E.
    + destruct (N i a E) as [b [Eb Fb]]. rewrite Fb. cbn [bind]. destruct (IH (set_slot i b s) ltac:(rewrite set_slot_length; exact L)) as [s' [R [L' V]]].
      exists s'. split; [exact R|]. split; [exact L'|]. intros j Hj. rewrite V by exact Hj.
      assert (Hi : (i < length l)%nat) by (apply nth_error_Some; congruence).
      rewrite set_slot_nth by lia. destruct (in_dec Nat.eq_dec j order) as [I|I]; destruct (in_dec Nat.eq_dec j (i :: order)) as [I'|I']; auto.
      * exfalso. apply I'. right. exact I.
      * destruct I' as [->|I']; [|contradiction]. rewrite Nat.eqb_refl. symmetry. exact Eb.
      * destruct (Nat.eqb_spec j i) as [->|Nji]; [exfalso; apply I'; left; reflexivity|reflexivity].
    + destruct (IH s L) as [s' [R [L' V]]]. exists s'. split; [exact R|]. split; [exact L'|]. intros j Hj. rewrite V by exact Hj.
      assert (Hi : (length l <= i)%nat) by (apply nth_error_None; exact E).
      destruct (in_dec Nat.eq_dec j order) as [I|I]; destruct (in_dec Nat.eq_dec j (i :: order)) as [I'|I']; auto.
      * exfalso. apply I'. right. exact I.
      * destruct I' as [->|I']; [lia|contradiction].
Qed.
Lemma run_err {A B} (f : A -> res B) l order : forall s e, run_tasks order f l s = Err e -> exists a, In a l /\ f a = Err e.
Proof.
  induction order as [|i order IH]; intros s e H; cbn [run_tasks] in H; [discriminate H|].
  destruct (nth_error l i) as [a|] eqn:E; [|exact (IH _ _ H)]. destruct (f a) as [b|x] eqn:F; cbn [bind] in H; [exact (IH _ _ H)|].
  injection H as <-. exists a. split; [exact (nth_error_In _ _ E)|exact F].
Qed.
Lemma run_all_ok {A B} (f : A -> res B) l order : forall s s', run_tasks order f l s = Ok s' ->
  forall i a, In i order -> nth_error l i = Some a -> exists b, f a = Ok b.
Proof.
  induction order as [|k order IH]; intros s s' H i a I E; [destruct I|]. cbn [run_tasks] in H.
  destruct (nth_error l k) as [a0|] eqn:E0.
  - destruct (f a0) as [b|x] eqn:F; cbn [bind] in H; [|discriminate H]. destruct I as [->|I]; [|exact (IH _ _ H i a I E)].
    rewrite E0 in E. injection E as <-. exists b. exact F.
  - destruct I as [->|I]; [congruence|exact (IH _ _ H i a I E)].
Qed.
Lemma mapM_slot {B} (r : list B) : mapM slot (map Some r) = Ok r.
Proof. induction r as [|b r IH]; [reflexivity|]. cbn [map mapM slot bind]. rewrite IH. reflexivity. Qed.
Lemma Forall2_mapM {A B} (f : A -> res B) l r : Forall2 (fun a b => f a = Ok b) l r -> mapM f l = Ok r.
Proof. induction 1 as [|a b l r H F IH]; [reflexivity|]. cbn [mapM]. rewrite H, IH. reflexivity. Qed.
Lemma nth_map_some {B} (r : list B) j : (j < length r)%nat -> nth j (map Some r) None = nth_error r j.
Proof. revert j; induction r as [|b r IH]; intros [|j] H; simpl in *; try lia; auto. apply IH. lia. Qed.
Lemma parallel_ok {A B} nj order (f : A -> res B) l r : nj <> 0%Z -> Permutation order (seq 0 (length l)) ->
  mapM f l = Ok r -> parallel nj order f l = Ok r.
Proof.
  intros N P M. unfold parallel. apply Z.eqb_neq in N. rewrite N. cbn [negb ensure bind].
  assert (F := mapM_Forall2 _ _ _ M). assert (LR := mapM_length _ _ _ M).
  destruct (run_ok f l r F order (repeat None (length l)) (repeat_length _ _)) as [s' [R [L V]]]. rewrite R. cbn [bind].
  replace s' with (map Some r); [apply mapM_slot|].
  apply (nth_ext _ _ None None); [rewrite map_length; lia|]. rewrite map_length. intros j Hj. rewrite V by lia.
  destruct (in_dec Nat.eq_dec j order) as [I|I]; [apply nth_map_some; exact Hj|].
  exfalso. apply I. apply (Permutation_in _ (Permutation_sym P)). apply in_seq. lia.
Qed.
Lemma parallel_mapM {A B} nj order (f : A -> res B) l r : nj <> 0%Z -> Permutation order (seq 0 (length l)) ->
  parallel nj order f l = Ok r -> mapM f l = Ok r.
Proof.
  intros N P H. destruct (mapM f l) as [r'|e] eqn:M.
  - rewrite (parallel_ok nj order f l r' N P M) in H. exact H.
  - exfalso. destruct (mapM_raises _ _ _ M) as [a [I E]]. unfold parallel in H. apply Z.eqb_neq in N. rewrite N in H. cbn [negb ensure bind] in H.
    apply bind_ok in H. destruct H as [s [R _]]. destruct (In_nth_error _ _ I) as [i Ei].
    assert (Hi : (i < length l)%nat) by (apply nth_error_Some; congruence).
    destruct (run_all_ok f l order _ _ R i a) as [b Fb]; [apply (Permutation_in _ (Permutation_sym P)); apply in_seq; lia|exact Ei|congruence].
Qed.
Lemma parallel_err {A B} nj order (f : A -> res B) l e : nj <> 0%Z -> Permutation order (seq 0 (length l)) ->
  parallel nj order f l = Err e -> exists a, In a l /\ f a = Err e.
Proof.
  intros N P H. destruct (mapM f l) as [r'|x] eqn:M.
  - rewrite (parallel_ok nj order f l r' N P M) in H. discriminate H.
  - unfold parallel in H. pose proof N as N'. apply Z.eqb_neq in N'. rewrite N' in H. cbn [negb ensure bind] in H.
    destruct (run_tasks order f l (repeat None (length l))) as [s|y] eqn:R; cbn [bind] in H; [|injection H as ->; exact (run_err _ _ _ _ _ R)].
    exfalso. destruct (mapM_raises _ _ _ M) as [a [I E]]. destruct (In_nth_error _ _ I) as [i Ei].
    assert (Hi : (i < length l)%nat) by (apply nth_error_Some; congruence).
    destruct (run_all_ok f l order _ _ R i a) as [b Fb]; [apply (Permutation_in _ (Permutation_sym P)); apply in_seq; lia|exact Ei|congruence].
Qed.
Lemma parallel_0 {A B} order (f : A -> res B) l : parallel 0 order f l = Err ValueError.
Proof. reflexivity. Qed.

Section Predict.
  Context {X Y K : Type}.
  Variable truthy : K -> bool.

  Lemma predict_plain (m : pmodel X Y K) nj order w Xs c : nj <> 0%Z -> (nj <> 1%Z -> Permutation order (seq 0 (length Xs))) -> no_constraints c -> batch_agrees m w Xs ->
    forall Ys, predict truthy m nj order w Xs c = Ok Ys <-> Forall2 (fun x y => pm_inf m x w = Ok y) Xs Ys.
  Proof.
    intros N P C BA Ys. assert (G : predict truthy m nj order w Xs c = Ok Ys <-> mapM (fun x => pm_inf m x w) Xs = Ok Ys).
    { unfold predict. assert (Ec : (match c with Some (c :: r) => Some (c :: r) | _ => None end) = None) by (destruct C as [->| ->]; reflexivity). rewrite Ec.
      destruct (Z.eqb_spec nj 1) as [E|E]; cbn [negb].
      - unfold batch_agrees in BA. destruct (pm_batch m) as [f|]; [rewrite BA|]; reflexivity.
      - split; [apply parallel_mapM|apply parallel_ok]; auto. }
    rewrite G. split; [apply mapM_Forall2|apply Forall2_mapM].
  Qed.
  Lemma predict_plain_err (m : pmodel X Y K) nj order w Xs c e : nj <> 0%Z -> (nj <> 1%Z -> Permutation order (seq 0 (length Xs))) -> no_constraints c -> batch_agrees m w Xs ->
    predict truthy m nj order w Xs c = Err e -> exists x, In x Xs /\ pm_inf m x w = Err e.
  Proof.
    intros N P C BA. unfold predict. assert (Ec : (match c with Some (c :: r) => Some (c :: r) | _ => None end) = None) by (destruct C as [->| ->]; reflexivity). rewrite Ec.
    destruct (Z.eqb_spec nj 1) as [E|E]; cbn [negb].
    - unfold batch_agrees in BA. destruct (pm_batch m) as [f|]; [rewrite BA|]; apply mapM_raises.
    - apply parallel_err; auto.
  Qed.
  Lemma predict_zero (m : pmodel X Y K) order w Xs c : predict truthy m 0 order w Xs c = Err ValueError.
  Proof. unfold predict. cbn [Z.eqb negb]. destruct c as [[|k l]|]; reflexivity. Qed.

  (** with constraints *)
  Lemma predict_constraints (m : pmodel X Y K) nj order w Xs cs : nj <> 0%Z -> (nj <> 1%Z -> Permutation order (seq 0 (length (combine Xs cs)))) -> cs <> [] ->
    batch_c_agrees m w Xs cs ->
    (forall x k, In k cs -> truthy k = false -> pm_inf_c m x w k = pm_inf m x w) ->
    forall Ys, predict truthy m nj order w Xs (Some cs) = Ok Ys <-> Forall2 (fun p y => pm_inf_c m (fst p) w (snd p) = Ok y) (combine Xs cs) Ys.
  Proof.
    intros N P C BA T Ys. assert (G : predict truthy m nj order w Xs (Some cs) = Ok Ys <-> mapM (fun p => pm_inf_c m (fst p) w (snd p)) (combine Xs cs) = Ok Ys).
    { unfold predict. destruct cs as [|k0 cs]; [contradiction|].
      destruct (Z.eqb_spec nj 1) as [E|E]; cbn [negb].
      - unfold batch_c_agrees in BA. destruct (pm_batch m) as [f|]; [rewrite BA|]; reflexivity.
      - rewrite (mapM_ext (fun p => pm_inf_c m (fst p) w (snd p)) (inference_with truthy m w)).
        + split; [apply parallel_mapM|apply parallel_ok]; auto.
        + intros [x k] I. unfold inference_with. cbn [fst snd]. destruct (truthy k) eqn:Tk; [reflexivity|]. apply T; [exact (in_combine_r _ _ _ _ I)|exact Tk]. }
    rewrite G. split; [apply mapM_Forall2|apply Forall2_mapM].
  Qed.

  (** ** score *)
  Lemma pscore_value (m : pmodel X Y K) nj order w Xs Ys P losses mls : nj <> 0%Z -> (nj <> 1%Z -> Permutation order (seq 0 (length Xs))) -> batch_agrees m w Xs ->
    Forall2 (fun x y => pm_inf m x w = Ok y) Xs P ->
    (match pm_batch_loss m with Some f => f Ys P = mapM (fun p => pm_loss m (fst p) (snd p)) (combine Ys P) | None => True end) ->
    Forall2 (fun p l => pm_loss m (fst p) (snd p) = Ok l) (combine Ys P) losses ->
    Forall2 (fun y l => pm_max_loss m y = Ok l) Ys mls ->
    pscore truthy m nj order w Xs Ys = if Qceqb (lsum mls) 0 then Err NonFinite else Ok (1 - lsum losses / lsum mls).
  Proof.
    intros N PO BA F BL FL FM. unfold pscore. rewrite (proj2 (predict_plain m nj order w Xs None N PO (or_introl eq_refl) BA P) F). cbn [bind].
    apply Forall2_mapM in FL. apply Forall2_mapM in FM.
    destruct (pm_batch_loss m) as [f|]; [rewrite BL|]; rewrite FL; cbn [bind]; rewrite FM; reflexivity.
  Qed.

  (** ** training loss curve *)
  Lemma training_losses_value (m : pmodel X Y K) nj order every Xs Ys (ws : list (list Qc)) ss : every <> 0%Z ->
    Forall2 (fun w s => pscore truthy m nj order w Xs Ys = Ok s) ws ss -> forall start curve,
    exists c, training_losses truthy m nj order every ws Xs Ys start curve = Ok c /\
      let recorded := map (fun p => 1 - snd p) (filter (fun p => ((start + Z.of_nat (fst p)) mod every =? 0)%Z) (combine (seq 0 (length ss)) ss)) in
      (match c with Some l => l | None => [] end) = (match curve with Some l => l | None => [] end) ++ recorded /\
      (c = None <-> curve = None /\ recorded = []).
  Proof.
    intros N F. induction F as [|w s ws ss H F IH]; intros start curve.
    - exists curve. split; [reflexivity|]. cbn. rewrite app_nil_r. split; [reflexivity|tauto].
    - cbn [training_losses]. unfold compute_training_loss at 1. pose proof N as N'. apply Z.eqb_neq in N'. rewrite N'. cbn [negb andb].
      assert (SH : forall st, map (fun p : nat * Qc => 1 - snd p) (filter (fun p => ((st + 1 + Z.of_nat (fst p)) mod every =? 0)%Z) (combine (seq 0 (length ss)) ss)) =
         map (fun p : nat * Qc => 1 - snd p) (filter (fun p => ((st + Z.of_nat (fst p)) mod every =? 0)%Z) (combine (seq 1 (length ss)) ss))).
      { intro st. assert (GG : forall l k, map (fun p : nat * Qc => 1 - snd p) (filter (fun p => ((st + 1 + Z.of_nat (fst p)) mod every =? 0)%Z) (combine (seq k (length l)) l)) =
         map (fun p : nat * Qc => 1 - snd p) (filter (fun p => ((st + Z.of_nat (fst p)) mod every =? 0)%Z) (combine (seq (S k) (length l)) l))); [|apply GG].
        intro l. induction l as [|a l IHl]; intro k; [reflexivity|]. cbn [length seq combine filter fst snd].
        replace (st + 1 + Z.of_nat k)%Z with (st + Z.of_nat (S k))%Z by lia. specialize (IHl (S k)).
        destruct ((st + Z.of_nat (S k)) mod every =? 0)%Z; cbn [map]; [f_equal|]; exact IHl. }
      cbn [length seq combine filter fst snd]. replace (start + Z.of_nat 0)%Z with start by lia.
      destruct (start mod every =? 0)%Z eqn:D.
      + rewrite H. cbn [bind]. destruct (IH (start + 1)%Z (Some ((match curve with Some l => l | None => [] end) ++ [1 - s]))) as [c [E [V Q]]].
        exists c. split; [exact E|]. cbv zeta in V, Q |- *. rewrite SH in V, Q. cbn [map]. split.
        * rewrite V. rewrite <- app_assoc. reflexivity.
        * split; [intro Z1; apply Q in Z1; destruct Z1 as [Z1 _]; discriminate Z1|intros [_ Z1]; discriminate Z1].
      + cbn [bind]. destruct (IH (start + 1)%Z curve) as [c [E [V Q]]]. exists c. split; [exact E|]. cbv zeta in V, Q |- *. rewrite SH in V, Q. split; [exact V|exact Q].
  Qed.
  Lemma training_losses_off (m : pmodel X Y K) nj order Xs Ys ws start curve : training_losses truthy m nj order 0 ws Xs Ys start curve = Ok curve.
  Proof. revert start. induction ws as [|w ws IH]; intro start; [reflexivity|]. cbn [training_losses compute_training_loss Z.eqb negb andb bind]. apply IH. Qed.
End Predict.
