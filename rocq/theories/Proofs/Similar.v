From Coq Require Import ZArith Lia.
From Verif Require Import Spec.SimilarSpec Proofs.Alike.

(** ** related computations *)
Lemma rel_bind {A B A' B'} (R : A -> A' -> Prop) (Q : B -> B' -> Prop) r r' k k' :
  rel_res R r r' -> (forall a a', R a a' -> rel_res Q (k a) (k' a')) -> rel_res Q (bind r k) (bind r' k').
Proof. destruct r, r'; cbn; intros H K; try contradiction; [apply K; exact H|exact H]. Qed.
Lemma rel_refl {A} (r : res A) : rel_res eq r r.
Proof. destruct r; reflexivity. Qed.
Lemma rel_eq {A} (r r' : res A) : rel_res eq r r' -> r = r'.
Proof. destruct r, r'; cbn; intro; try contradiction; congruence. Qed.
Lemma rel_eq_inv {A} (r r' : res A) : r = r' -> rel_res eq r r'.
Proof. intros ->. apply rel_refl. Qed.
Lemma rel_imp {A B} (R Q : A -> B -> Prop) r r' : (forall a b, R a b -> Q a b) -> rel_res R r r' -> rel_res Q r r'.
Proof. destruct r, r'; cbn; auto. Qed.
Lemma rel_mapM {A A' B B'} (R : A -> A' -> Prop) (Q : B -> B' -> Prop) f f' l l' :
  Forall2 R l l' -> (forall a a', R a a' -> rel_res Q (f a) (f' a')) -> rel_res (Forall2 Q) (mapM f l) (mapM f' l').
Proof.
  intros F H. induction F as [|a a' l l' HR _ IH]; cbn [mapM]; [constructor|].
  apply (rel_bind Q); [apply H; exact HR|]. intros b b' HB. apply (rel_bind (Forall2 Q)); [exact IH|]. intros bs bs' HBS. cbn. constructor; assumption.
Qed.
Lemma each_imp {X X' A A'} (R Q : X -> X' -> A -> A' -> Prop) S S' l l' : (forall p p' a a', R p p' a a' -> Q p p' a a') -> each R S S' l l' -> each Q S S' l l'.
Proof. intros H E. induction E; constructor; auto. Qed.
Lemma each_nth {X X' A A'} (R : X -> X' -> A -> A' -> Prop) S S' l l' : each R S S' l l' -> forall i p p', nth_error S i = Some p -> nth_error S' i = Some p' ->
  exists a a', nth_error l i = Some a /\ nth_error l' i = Some a' /\ R p p' a a'.
Proof.
  induction 1 as [|p p' a a' S S' l l' H _ IH]; intros [|i] q q' E E'; try discriminate; cbn in E, E' |- *.
  - injection E as <-. injection E' as <-. eauto.
  - eauto.
Qed.
Lemma each_length {X X' A A'} (R : X -> X' -> A -> A' -> Prop) S S' l l' : each R S S' l l' -> length S = length l /\ length S' = length l' /\ length S = length S'.
Proof. induction 1 as [|p p' a a' S S' l l' H _ IH]; cbn; [auto|]. lia. Qed.
Lemma rel_index {A A'} (R : A -> A' -> Prop) l l' i : Forall2 R l l' -> rel_res R (index l i) (index l' i).
Proof.
  intro F. revert i. induction F as [|a a' l l' H _ IH]; intros [|i]; unfold index in *; cbn; auto.
Qed.

(** ** vectors *)
Lemma vsub_vadd a b : vsub a b = vadd a (vscale (- (1)) b).
Proof.
  revert b. induction a as [|x a IH]; intros [|y b]; try reflexivity. rewrite vsub_cons, vscale_cons, vadd_cons, IH. f_equal; try ring.
Qed.
Lemma dot_self_zero a : dot a a = 0 -> a = vzero (length a).
Proof.
  intro H. induction a as [|x a IH]; [reflexivity|]. rewrite dot_cons in H.
  assert (N : 0 <= dot a a) by (fold (normsq a); apply normsq_nonneg). assert (N2 := Qc_sq_nonneg x).
  assert (X0 : x * x = 0) by qclra. assert (D0 : dot a a = 0) by qclra. apply Qcmult_integral in X0.
  change (length (x :: a)) with (Datatypes.S (length a)). unfold vzero in *. cbn [repeat]. rewrite <- (IH D0). destruct X0 as [-> | ->]; reflexivity.
Qed.
Lemma vsub_zero a b : length a = length b -> vsub a b = vzero (length a) -> a = b.
Proof.
  revert b. induction a as [|x a IH]; intros [|y b] HL E; try discriminate; [reflexivity|]. rewrite vsub_cons in E. unfold vzero in E. cbn [repeat length] in E.
  assert (E1 : x - y = 0) by congruence. assert (E2 : vsub a b = repeat 0 (length a)) by congruence. clear E.
  f_equal; [|apply IH; [cbn in HL; lia|exact E2]]. clear - E1. qclra.
Qed.
Lemma vec_eqb_iff a b : vec_eqb a b = true <-> a = b.
Proof.
  unfold vec_eqb. split.
  - intro H. apply andb_prop in H. destruct H as [HL H]. apply Nat.eqb_eq in HL. revert b HL H.
    induction a as [|x a IH]; intros [|y b] HL H; try discriminate; [reflexivity|]. cbn in H. apply andb_prop in H. destruct H as [H1 H2].
    f_equal; [|apply IH; [cbn in HL; lia|exact H2]]. destruct (Qceqb_spec x y); [assumption|discriminate].
  - intros ->. rewrite Nat.eqb_refl. cbn. apply forallb_forall. intros [x y] HI. cbn.
    assert (x = y). { clear - HI. induction b as [|z b IH]; [contradiction|]. destruct HI as [E|HI]; [congruence|auto]. } subst. apply Qceqb_refl.
Qed.

Section Vectors.
Variables (n n' : nat) (V : list Qc -> list Qc -> Prop).
Hypothesis HV : isometry n n' V.
Lemma V_len a a' : V a a' -> length a = n /\ length a' = n'.
Proof. exact (proj1 HV a a'). Qed.
Lemma V_zero : V (vzero n) (vzero n').
Proof. exact (proj1 (proj2 HV)). Qed.
Lemma V_add a a' b b' : V a a' -> V b b' -> V (vadd a b) (vadd a' b').
Proof. exact (proj1 (proj2 (proj2 HV)) a a' b b'). Qed.
Lemma V_scale c a a' : V a a' -> V (vscale c a) (vscale c a').
Proof. exact (proj1 (proj2 (proj2 (proj2 HV))) c a a'). Qed.
Lemma V_dot a a' b b' : V a a' -> V b b' -> dot a b = dot a' b'.
Proof. exact (proj2 (proj2 (proj2 (proj2 HV))) a a' b b'). Qed.
Lemma V_sub a a' b b' : V a a' -> V b b' -> V (vsub a b) (vsub a' b').
Proof. intros A B. rewrite !vsub_vadd. apply V_add; [exact A|]. apply V_scale. exact B. Qed.
Lemma V_norm a a' : V a a' -> normsq a = normsq a'.
Proof. intro A. exact (V_dot a a' a a' A A). Qed.
Lemma V_lens a a' b b' : V a a' -> V b b' -> (length a =? length b)%nat = true /\ (length a' =? length b')%nat = true.
Proof. intros A B. destruct (V_len a a' A) as [-> ->], (V_len b b' B) as [-> ->]. rewrite !Nat.eqb_refl. auto. Qed.
Lemma rel_vadd a a' b b' : V a a' -> V b b' -> rel_res V (np_vadd a b) (np_vadd a' b').
Proof. intros A B. unfold np_vadd. destruct (V_lens a a' b b' A B) as [-> ->]. cbn. apply V_add; assumption. Qed.
Lemma rel_vsub a a' b b' : V a a' -> V b b' -> rel_res V (np_vsub a b) (np_vsub a' b').
Proof. intros A B. unfold np_vsub. destruct (V_lens a a' b b' A B) as [-> ->]. cbn. apply V_sub; assumption. Qed.
Lemma rel_dot a a' b b' : V a a' -> V b b' -> np_dot a b = np_dot a' b'.
Proof. intros A B. unfold np_dot. destruct (V_lens a a' b b' A B) as [-> ->]. rewrite (V_dot a a' b b' A B). reflexivity. Qed.
Lemma V_inj a a' b b' : V a a' -> V b b' -> (a = b <-> a' = b').
Proof.
  intros A B. destruct (V_len a a' A) as [LA LA'], (V_len b b' B) as [LB LB']. assert (E := V_norm _ _ (V_sub a a' b b' A B)). split; intros ->.
  - apply vsub_zero; [congruence|]. assert (Z : vsub b b = vzero (length b)).
    { clear. induction b as [|x b IH]; [reflexivity|]. rewrite vsub_cons. unfold vzero in *. cbn [length repeat]. rewrite <- IH. f_equal. ring. }
    rewrite Z in E. unfold normsq in E. rewrite dot_vzero_l in E. symmetry in E. apply dot_self_zero in E. rewrite E. f_equal. apply vsub_length. congruence.
  - apply vsub_zero; [congruence|]. assert (Z : vsub b' b' = vzero (length b')).
    { clear. induction b' as [|x b IH]; [reflexivity|]. rewrite vsub_cons. unfold vzero in *. cbn [length repeat]. rewrite <- IH. f_equal. ring. }
    rewrite Z in E. unfold normsq in E. rewrite dot_vzero_l in E. apply dot_self_zero in E. rewrite E. f_equal. apply vsub_length. congruence.
Qed.
Lemma V_eqb a a' b b' : V a a' -> V b b' -> vec_eqb a b = vec_eqb a' b'.
Proof.
  intros A B. assert (I := V_inj a a' b b' A B). destruct (vec_eqb a b) eqn:E, (vec_eqb a' b') eqn:E'; try reflexivity.
  - apply vec_eqb_iff in E. apply I in E. apply vec_eqb_iff in E. congruence.
  - apply vec_eqb_iff in E'. apply I in E'. apply vec_eqb_iff in E'. congruence.
Qed.
Lemma V_vmix g a a' b b' : V a a' -> V b b' -> V (vmix g a b) (vmix g a' b').
Proof. intros A B. unfold vmix. apply V_add; apply V_scale; assumption. Qed.
Lemma rel_sum_features acc acc' fs fs' : V acc acc' -> Forall2 (rel_res V) fs fs' -> rel_res V (sum_features acc fs) (sum_features acc' fs').
Proof.
  intros A F. revert acc acc' A. induction F as [|f f' fs fs' H _ IH]; intros acc acc' A; cbn [sum_features]; [exact A|].
  apply (rel_bind V); [exact H|]. intros v v' HVV. apply (rel_bind V); [apply rel_vadd; assumption|]. intros b b' HB. apply IH. exact HB.
Qed.

(** ** the quadratic programs *)
Lemma vstack_V psis psis' : Forall2 V psis psis' -> psis <> [] ->
  vstack psis = Ok (Mat (length psis) n psis) /\ vstack psis' = Ok (Mat (length psis') n' psis').
Proof.
  intros F N. assert (A1 : Forall (fun v => length v = n) psis) by (clear N; induction F as [|a a' l l' H _ IH]; constructor; [exact (proj1 (V_len _ _ H))|exact IH]).
  assert (A2 : Forall (fun v => length v = n') psis') by (clear N A1; induction F as [|a a' l l' H _ IH]; constructor; [exact (proj2 (V_len _ _ H))|exact IH]).
  assert (G : forall k l, Forall (fun v : list Qc => length v = k) l -> l <> [] -> vstack l = Ok (Mat (length l) k l)).
  { intros k l HF HN. destruct l as [|r l]; [contradiction|]. unfold vstack. assert (length r = k) by (inversion HF; assumption).
    replace (forallb _ _) with true; [rewrite H; reflexivity|]. symmetry. apply forallb_forall. intros v Hv. apply Nat.eqb_eq. rewrite Forall_forall in HF. rewrite (HF v Hv). congruence. }
  split; apply G; try assumption. destruct F; [contradiction|discriminate].
Qed.
Lemma gram_V psis psis' reg : Forall2 V psis psis' -> gram (Mat (length psis) n psis) reg = gram (Mat (length psis') n' psis') reg.
Proof.
  intro F. unfold gram. cbn [mrows mcols]. rewrite <- (Forall2_length_eq _ _ _ F). unfold mtab. f_equal. apply tab2_ext. intros i j Hi Hj. f_equal.
  unfold mget, get2. cbn [mdat].
  assert (G : forall k, (k < length psis)%nat -> V (nth k psis []) (nth k psis' [])).
  { clear - F. induction F as [|a a' l l' H _ IH]; intros k Hk; [cbn in Hk; lia|]. destruct k as [|k]; [exact H|]. apply IH. cbn in Hk. lia. }
  assert (D := V_dot _ _ _ _ (G i Hi) (G j Hj)). destruct (V_len _ _ (G i Hi)) as [L1 L2], (V_len _ _ (G j Hj)) as [L3 L4].
  rewrite !dot_get in D by congruence. rewrite L1, L2 in D. exact D.
Qed.
Lemma neg_V psis psis' neg neg' : Forall2 V psis psis' -> similar_neg V n n' neg neg' ->
  neg_rows (Mat (length psis) n psis) neg = neg_rows (Mat (length psis') n' psis') neg'.
Proof.
  intros F HN. unfold neg_rows. destruct neg as [l|], neg' as [l'|]; cbn in HN; try contradiction; cbn [mrows]; rewrite <- (Forall2_length_eq _ _ _ F); [|reflexivity].
  unfold take_rows, mat_T, mtab. cbn [mrows mcols mdat]. rewrite (Forall2_length_eq _ _ _ HN).
  assert (B1 : forallb (fun i => (i <? n)%nat) l = true) by (apply forallb_forall; intros i Hi; apply Nat.ltb_lt; clear - HN Hi; induction HN as [|i1 i2 l l' H _ IH]; [contradiction|destruct Hi as [-> |Hi]; [exact (proj1 H)|auto]]).
  assert (B2 : forallb (fun i => (i <? n')%nat) l' = true) by (apply forallb_forall; intros i Hi; apply Nat.ltb_lt; clear - HN Hi; induction HN as [|i1 i2 l l' H _ IH]; [contradiction|destruct Hi as [-> |Hi]; [exact (proj1 (proj2 H))|auto]]).
  rewrite B1, B2. f_equal. f_equal. clear B1 B2. induction HN as [|i i' l l' (Hi & Hi' & H) _ IH]; [reflexivity|]. cbn [map]. f_equal; [|exact IH].
  rewrite !nth_tab2 by assumption. apply tab1_ext. intros k Hk. unfold mget, get2. cbn [mdat]. apply H.
  clear - F Hk. revert k Hk. induction F as [|a a' l l' H _ IH]; intros k Hk; [cbn in Hk; lia|]. destruct k as [|k]; [exact H|]. apply IH. cbn in Hk. lia.
Qed.
Lemma n_slack_problem_V C neg neg' k psis psis' losses sizes reg : Forall2 V psis psis' -> similar_neg V n n' neg neg' ->
  n_slack_problem C neg k psis losses sizes reg = n_slack_problem C neg' k psis' losses sizes reg.
Proof.
  intros F HN. unfold n_slack_problem. destruct psis as [|r psis]; [inversion F; reflexivity|].
  destruct (vstack_V _ _ F) as [-> ->]; [discriminate|]. cbn [bind mrows]. rewrite (neg_V _ _ _ _ F HN), (gram_V _ _ reg F), <- (Forall2_length_eq _ _ _ F). reflexivity.
Qed.
Lemma one_slack_problem_V C neg neg' k psis psis' losses reg : Forall2 V psis psis' -> similar_neg V n n' neg neg' ->
  one_slack_problem C neg k psis losses reg = one_slack_problem C neg' k psis' losses reg.
Proof.
  intros F HN. unfold one_slack_problem. destruct psis as [|r psis]; [inversion F; reflexivity|].
  destruct (vstack_V _ _ F) as [-> ->]; [discriminate|]. cbn [bind mrows]. rewrite (neg_V _ _ _ _ F HN), (gram_V _ _ reg F), <- (Forall2_length_eq _ _ _ F). reflexivity.
Qed.
Lemma comb_cons k a l (r : list Qc) rs : length r = k ->
  tab1 k (fun j => sumn (Datatypes.S l) (fun c => get1 a c * get2 (r :: rs) c j)) =
  vadd (vscale (get1 a 0) r) (tab1 k (fun j => sumn l (fun c => get1 (tl a) c * get2 rs c j))).
Proof.
  intro HL. apply vec_ext.
  - rewrite vadd_length; rewrite ?vscale_length; unfold tab1; rewrite !map_length, seq_length; congruence.
  - intros i Hi. assert (Hk : (i < k)%nat) by (unfold tab1 in Hi; rewrite map_length, seq_length in Hi; exact Hi).
    rewrite get1_tab1 by exact Hk. rewrite get1_vadd by (rewrite vscale_length; unfold tab1; rewrite map_length, seq_length; congruence).
    rewrite get1_tab1 by exact Hk. rewrite sumn_S_l, get1_vscale. f_equal.
    apply sumn_ext. intros c _. f_equal. destruct a; [destruct c; reflexivity|reflexivity].
Qed.
Lemma comb_V psis psis' : Forall2 V psis psis' -> forall a,
  V (tab1 n (fun j => sumn (length psis) (fun c => get1 a c * get2 psis c j))) (tab1 n' (fun j => sumn (length psis') (fun c => get1 a c * get2 psis' c j))).
Proof.
  induction 1 as [|r r' l l' H _ IH]; intro a.
  - replace (tab1 n _) with (vzero n); [replace (tab1 n' _) with (vzero n'); [exact V_zero|]|].
    + apply vec_ext; [unfold vzero, tab1; rewrite repeat_length, map_length, seq_length; reflexivity|]. intros i Hi. unfold vzero in Hi. rewrite repeat_length in Hi. rewrite get1_tab1 by exact Hi. cbn. apply get1_vzero.
    + apply vec_ext; [unfold vzero, tab1; rewrite repeat_length, map_length, seq_length; reflexivity|]. intros i Hi. unfold vzero in Hi. rewrite repeat_length in Hi. rewrite get1_tab1 by exact Hi. cbn. apply get1_vzero.
  - cbn [length]. destruct (V_len _ _ H) as [L1 L2]. rewrite (comb_cons n _ _ _ _ L1), (comb_cons n' _ _ _ _ L2). apply V_add; [apply V_scale; exact H|apply IH].
Qed.
Lemma rel_weights a psis psis' : Forall2 V psis psis' -> rel_res V (weights a psis) (weights a psis').
Proof.
  intro F. unfold weights. destruct psis as [|r psis]; [inversion F; reflexivity|]. destruct (vstack_V _ _ F) as [-> ->]; [discriminate|].
  cbn [bind mrows mcols]. rewrite <- (Forall2_length_eq _ _ _ F). destruct (length a =? length (r :: psis))%nat; [|reflexivity]. cbn [rel_res].
  assert (Q := comb_V _ _ F a). rewrite <- (Forall2_length_eq _ _ _ F) in Q. exact Q.
Qed.
End Vectors.
