From Verif Require Import Model.SVM Spec.QPSpec Spec.SVMSpec Proofs.Arrays Proofs.QPProofs Proofs.SVMProofs.

Section KKT.
Variables (C : Qc) (n d : nat) (X : mat) (y a : list Qc).
Hypothesis D : svm_data n d X y.
Hypothesis O : dual_optimal C X y a.
Let w := dual_weights X y a.
Variable m : nat.
Hypothesis Hm : (m < n)%nat.
Hypothesis Im : 0 < get1 a m < C.
Let b := get1 y m - dot w (point X m).

Lemma move_feasible k s e : (k < n)%nat -> 0 <= e -> (s = 1 \/ s = - (1)) ->
  0 <= get1 a k + s * e <= C -> e <= get1 a m -> e <= C - get1 a m ->
  dual_feasible C X y (tab1 n (fun i => get1 a i + s * e * (ind (i =? k)%nat - get1 y k * get1 y m * ind (i =? m)%nat))).
Proof.
  intros Hk He Hs HK E1 E2. pose proof D as (_ & Hr & _ & _ & Hy). destruct O as [(La & HB & HS) _]. rewrite Hr in *.
  split; [rewrite tab1_length; auto|]. rewrite Hr. split.
  - intros i Hi. rewrite get1_tab1 by assumption. destruct (HB i Hi) as [A0 A1].
    pose proof (Hy k Hk) as Yk. pose proof (Hy m Hm) as Ym.
    destruct (Nat.eqb_spec i k) as [Ek|Nk], (Nat.eqb_spec i m) as [Em|Nm]; cbn [ind].
    + subst i. subst k. rewrite (label_sq n d X y m D Hm). replace (get1 a m + s * e * (1 - 1 * 1)) with (get1 a m) by ring. auto.
    + subst i. replace (get1 a k + s * e * (1 - get1 y k * get1 y m * 0)) with (get1 a k + s * e) by ring. assumption.
    + assert (Q : s * e * (0 - get1 y k * get1 y m * 1) = e \/ s * e * (0 - get1 y k * get1 y m * 1) = - e).
      { destruct Hs as [-> | ->], Yk as [-> | ->], Ym as [-> | ->]; [right|left|left|right|left|right|right|left]; ring. }
      subst i. destruct Q as [-> | ->]; split; qclra.
    + replace (get1 a i + s * e * (0 - get1 y k * get1 y m * 0)) with (get1 a i) by ring. auto.
  - rewrite (sumn_ext n _ (fun i => get1 a i * get1 y i + (s * e * (ind (i =? k)%nat * get1 y i) - s * e * get1 y k * get1 y m * (ind (i =? m)%nat * get1 y i))))
      by (intros i Hi; rewrite get1_tab1 by assumption; ring).
    rewrite sumn_plus, sumn_minus, !sumn_mult_l, HS, !(sumn_pick n) by assumption.
    replace (s * e * get1 y k * get1 y m * get1 y m) with (s * e * get1 y k * (get1 y m * get1 y m)) by ring. rewrite (label_sq n d X y m D Hm). ring.
Qed.
Lemma move_value k s e : (k < n)%nat -> 0 < e -> (s = 1 \/ s = - (1)) ->
  0 <= get1 a k + s * e <= C -> e <= get1 a m -> e <= C - get1 a m ->
  s * (1 - margin X y w b k) <= 0.
Proof.
  intros Hk He Hs HK E1 E2. pose proof (move_feasible k s e Hk (Qclt_le_weak _ _ He) Hs HK E1 E2) as F.
  pose proof (dual_vi C n d X y a _ D O F) as V. fold w in V.
  rewrite (sumn_ext n _ (fun i => s * e * (ind (i =? k)%nat * (1 - get1 y i * dot w (point X i))) -
      s * e * get1 y k * get1 y m * (ind (i =? m)%nat * (1 - get1 y i * dot w (point X i))))) in V
    by (intros i Hi; rewrite get1_tab1 by assumption; ring).
  rewrite sumn_minus, !sumn_mult_l, !(sumn_pick n) in V by assumption.
  pose proof (label_sq n d X y m D Hm) as Q.
  replace (s * e * (1 - get1 y k * dot w (point X k)) - s * e * get1 y k * get1 y m * (1 - get1 y m * dot w (point X m)))
    with (s * (1 - margin X y w b k) * e) in V.
  - apply Qcmult_lt_0_le_reg_r with e; [assumption|]. now rewrite Qcmult_0_l.
  - unfold margin, b. replace (s * e * get1 y k * get1 y m * (1 - get1 y m * dot w (point X m)))
      with (s * e * get1 y k * (get1 y m - (get1 y m * get1 y m) * dot w (point X m))) by ring. rewrite Q. ring.
Qed.
Lemma min3 (p q r : Qc) : 0 < p -> 0 < q -> 0 < r -> exists e, 0 < e /\ e <= p /\ e <= q /\ e <= r.
Proof.
  intros P Q R. exists (Qcmin p (Qcmin q r)). unfold Qcmin.
  destruct (Qcleb_spec q r); [destruct (Qcleb_spec p q)|destruct (Qcleb_spec p r)]; repeat split; try assumption; try apply Qcle_refl; qclra.
Qed.
Lemma kkt_below k : (k < n)%nat -> get1 a k < C -> 1 - margin X y w b k <= 0.
Proof.
  intros Hk Hl. destruct Im as [Im0 Im1]. destruct (min3 (C - get1 a k) (get1 a m) (C - get1 a m)) as (e & E0 & E1 & E2 & E3); try qclra.
  destruct O as [(La & HB & _) _]. pose proof D as (_ & Hr & _). rewrite Hr in HB. destruct (HB k Hk) as [B0 _].
  pose proof (move_value k 1 e Hk E0 (or_introl eq_refl)) as V. rewrite Qcmult_1_l in V. rewrite Qcmult_1_l in V. apply V; [split; qclra|assumption|assumption].
Qed.
Lemma kkt_above k : (k < n)%nat -> 0 < get1 a k -> 0 <= 1 - margin X y w b k.
Proof.
  intros Hk Hl. destruct Im as [Im0 Im1]. destruct (min3 (get1 a k) (get1 a m) (C - get1 a m)) as (e & E0 & E1 & E2 & E3); try qclra.
  destruct O as [(La & HB & _) _]. pose proof D as (_ & Hr & _). rewrite Hr in HB. destruct (HB k Hk) as [_ B1].
  pose proof (move_value k (- (1)) e Hk E0 (or_intror eq_refl)) as V.
  replace (- (1) * e) with (- e) in V by ring. replace (- (1) * (1 - margin X y w b k)) with (- (1 - margin X y w b k)) in V by ring.
  assert (- (1 - margin X y w b k) <= 0) by (apply V; [split; qclra|assumption|assumption]). generalize dependent (1 - margin X y w b k). intros; qclra.
Qed.
Lemma kkt_slack k : (k < n)%nat -> get1 a k * (1 - margin X y w b k) = C * slack X y w b k.
Proof.
  intros Hk. destruct O as [(La & HB & _) _]. pose proof D as (_ & Hr & _). rewrite Hr in HB. destruct (HB k Hk) as [B0 B1].
  unfold slack, Qcmax. destruct (Qcleb_spec 0 (1 - margin X y w b k)) as [P|P].
  - apply Qcle_lt_or_eq in B1. destruct B1 as [B1|B1]; [|now rewrite B1].
    pose proof (kkt_below k Hk B1) as K. assert (E : 1 - margin X y w b k = 0) by (apply Qcle_antisym; assumption). rewrite E. ring.
  - apply Qcle_lt_or_eq in B0. destruct B0 as [B0|B0]; [|rewrite <- B0; ring].
    pose proof (kkt_above k Hk B0) as K. exfalso. apply Qclt_not_le in P. contradiction.
Qed.
Lemma svm_strong_duality : svm_objective C X y w b = dual_objective X y a.
Proof.
  pose proof D as (_ & Hr & Hc & _). destruct O as [F _]. assert (Lw : length w = d) by (unfold w; rewrite dual_length; assumption).
  pose proof (svm_weighted C n d X y a w b D F Lw) as E. rewrite (sumn_ext n _ (fun k => C * slack X y w b k)) in E by (intros; now apply kkt_slack).
  rewrite sumn_mult_l in E. unfold svm_objective, dual_objective. rewrite Hr, E. fold w. change (dot w w) with (normsq w).
  field. discriminate.
Qed.
Lemma svm_opt : svm_minimises C X y w b.
Proof.
  pose proof D as (_ & Hr & Hc & _). destruct O as [F _]. split; [apply dual_length|].
  intros w' b' Lw. rewrite svm_strong_duality. apply svm_weak_duality with n d; congruence.
Qed.
Lemma interior_intercept k : (k < n)%nat -> 0 < get1 a k < C -> get1 y k - dot w (point X k) = b.
Proof.
  intros Hk [A0 A1]. assert (E : 1 - margin X y w b k = 0) by (apply Qcle_antisym; [now apply kkt_below|now apply kkt_above]).
  unfold margin in E. pose proof (label_sq n d X y k D Hk) as Q.
  assert (get1 y k * (1 - get1 y k * (dot w (point X k) + b)) = 0) by (rewrite E; ring).
  replace (get1 y k * (1 - get1 y k * (dot w (point X k) + b))) with (get1 y k - get1 y k * get1 y k * (dot w (point X k) + b)) in H by ring.
  rewrite Q in H. transitivity (b + (get1 y k - 1 * (dot w (point X k) + b))); [ring|]. rewrite H. ring.
Qed.
Lemma support_intercept k : (k < n)%nat -> 0 < get1 a k -> get1 y k - dot w (point X k) = b + get1 y k * slack X y w b k.
Proof.
  intros Hk A0. pose proof (kkt_above k Hk A0) as K. unfold slack, Qcmax. destruct (Qcleb_spec 0 (1 - margin X y w b k)) as [P|P].
  - unfold margin. pose proof (label_sq n d X y k D Hk) as Q.
    replace (get1 y k * (1 - get1 y k * (dot w (point X k) + b))) with (get1 y k - get1 y k * get1 y k * (dot w (point X k) + b)) by ring.
    rewrite Q. ring.
  - exfalso. apply Qclt_not_le in P. contradiction.
Qed.
End KKT.

(** ** fit *)
Definition support (a : list Qc) (n : nat) : list nat := filter (fun i => Qcltb sv_tol (get1 a i)) (seq 0 n).
Lemma sumn_list {A} (l : list A) (dflt : A) (f : A -> Qc) : sumn (length l) (fun i => f (nth i l dflt)) = lsum (map f l).
Proof.
  rewrite lsum_get, map_length. apply sumn_ext. intros i Hi. unfold get1. now rewrite (nth_map_in f l i dflt).
Qed.
Lemma get1_map_in (f : nat -> Qc) l i : (i < length l)%nat -> get1 (map f l) i = f (nth i l O).
Proof. intros H. unfold get1. now rewrite (nth_map_in f l i O). Qed.
Lemma lsum_filter (p : nat -> bool) f l : lsum (map f (filter p l)) = lsum (map (fun i => ind (p i) * f i) l).
Proof.
  induction l as [|i l IH]; [reflexivity|]. cbn [filter map lsum]. destruct (p i) eqn:E; cbn [map lsum ind]; rewrite IH; [|ring].
  f_equal. ring.
Qed.
Lemma lsum_seq f n : lsum (map f (seq 0 n)) = sumn n f.
Proof. change (map f (seq 0 n)) with (tab1 n f). apply lsum_tab1. Qed.
Lemma normal_spec dd sa (sv : list (list Qc)) sy : Forall (fun v => length v = dd) sv -> length sv = length sa ->
  length (normal dd sa sv sy) = dd /\
  forall j, get1 (normal dd sa sv sy) j = sumn (length sa) (fun i => get1 sa i * get1 sy i * get1 (nth i sv []) j).
Proof.
  intros F L. unfold normal.
  assert (G : forall k, (k <= length sa)%nat ->
    length (fold_left (fun w n => vadd w (vscale (get1 sa n * get1 sy n) (nth n sv []))) (seq 0 k) (vzero dd)) = dd /\
    forall j, get1 (fold_left (fun w n => vadd w (vscale (get1 sa n * get1 sy n) (nth n sv []))) (seq 0 k) (vzero dd)) j =
      sumn k (fun i => get1 sa i * get1 sy i * get1 (nth i sv []) j)).
  { induction k as [|k IH]; intros Hk.
    - cbn [seq fold_left]. split; [apply vzero_length|]. intros j. rewrite get1_vzero, sumn_O. reflexivity.
    - destruct (IH ltac:(lia)) as [I1 I2]. rewrite seq_S, fold_left_app. cbn [fold_left]. rewrite Nat.add_0_l.
      assert (LV : length (nth k sv []) = dd) by (rewrite Forall_forall in F; apply F, nth_In; lia).
      split.
      + rewrite vadd_length; [assumption|rewrite vscale_length; congruence].
      + intros j. rewrite get1_vadd by (rewrite vscale_length; congruence). rewrite get1_vscale, I2, sumn_S. reflexivity. }
  apply G. lia.
Qed.
Lemma in_support a n i : In i (support a n) <-> (i < n)%nat /\ sv_tol < get1 a i.
Proof.
  unfold support. rewrite filter_In, in_seq. split.
  - intros [H1 H2]. split; [lia|]. destruct (Qcltb_spec sv_tol (get1 a i)); [assumption|discriminate].
  - intros [H1 H2]. split; [lia|]. destruct (Qcltb_spec sv_tol (get1 a i)) as [|Q]; [reflexivity|]. apply Qcle_not_lt in Q. contradiction.
Qed.

Section Fit.
Variables (solve : qp -> res (list Qc)) (C : Qc) (n d : nat) (X : mat) (y a : list Qc) (p : qp).
Hypothesis D : svm_data n d X y.
Hypothesis EP : svm_problem X y C = Ok p.
Hypothesis ES : solve p = Ok a.
Hypothesis La : length a = n.
(** no multiplier is lost by the threshold *)
Hypothesis TOL : forall i, (i < n)%nat -> get1 a i = 0 \/ sv_tol < get1 a i.

Lemma normal_is_dual : normal (mcols X) (map (get1 a) (support a n)) (map (fun i => nth i (mdat X) []) (support a n)) (map (get1 y) (support a n)) = dual_weights X y a.
Proof.
  pose proof D as (_ & Hr & Hc & _).
  assert (F : Forall (fun v => length v = mcols X) (map (fun i => nth i (mdat X) []) (support a n))).
  { apply Forall_forall. intros v I. apply in_map_iff in I. destruct I as (i & <- & I). apply in_support in I. rewrite Hc.
    apply (point_length n d X y i D). apply I. }
  destruct (normal_spec (mcols X) (map (get1 a) (support a n)) _ (map (get1 y) (support a n)) F ltac:(now rewrite !map_length)) as [N1 N2].
  apply vec_ext; [now rewrite N1, dual_length|]. intros j Hj. rewrite N1 in Hj. rewrite N2. unfold dual_weights. rewrite get1_tab1 by assumption.
  rewrite map_length, Hr.
  transitivity (lsum (map (fun i => get1 a i * get1 y i * mget X i j) (support a n))).
  - rewrite <- (sumn_list (support a n) O). apply sumn_ext. intros i Hi. rewrite !get1_map_in, (nth_map_in _ (support a n) i O) by assumption. reflexivity.
  - unfold support. rewrite lsum_filter, lsum_seq. apply sumn_ext. intros i Hi. destruct (Qcltb_spec sv_tol (get1 a i)) as [Q|Q]; cbn [ind]; [ring|].
    destruct (TOL i Hi) as [Z|Z]; [rewrite Z; ring|]. apply Qcle_not_lt in Q. contradiction.
Qed.
Lemma fit_value : support a n <> [] ->
  svm_fit solve C X y = Ok (SVM (map (get1 a) (support a n)) (map (point X) (support a n)) (map (get1 y) (support a n))
    (lsum (map (fun i => get1 y i - dot (dual_weights X y a) (point X i)) (support a n)) / ofN (length (support a n)))
    (dual_weights X y a)).
Proof.
  intros HN. pose proof D as (_ & Hr & Hc & _). unfold svm_fit. rewrite EP. cbn [bind]. rewrite ES. cbn [bind].
  rewrite La, Hr, Nat.eqb_refl. cbn [ensure bind]. fold (support a n). rewrite normal_is_dual.
  unfold intercept. rewrite !map_length. destruct (Nat.eqb_spec (length (support a n)) 0) as [Z|Z].
  { destruct (support a n); [congruence|discriminate]. }
  cbn [bind]. f_equal. f_equal. f_equal.
  rewrite <- (sumn_list (support a n) O). apply sumn_ext. intros i Hi.
  rewrite get1_map_in, (nth_map_in _ (support a n) i O) by assumption. f_equal.
  set (k := nth i (support a n) O). assert (Ik : In k (support a n)) by (apply nth_In; assumption). apply in_support in Ik.
  rewrite (dual_dot n d X y a (point X k) D) by (apply (point_length n d X y k D); apply Ik).
  transitivity (lsum (map (fun j => get1 a j * (get1 y j * dot (point X j) (point X k))) (support a n))).
  - rewrite <- (sumn_list (support a n) O). apply sumn_ext. intros j Hj. rewrite !get1_map_in, !(nth_map_in _ (support a n) _ O) by assumption.
    fold k. change (get1 a (nth j (support a n) O) * get1 y (nth j (support a n) O) * dot (point X (nth j (support a n) O)) (point X k) =
     get1 a (nth j (support a n) O) * (get1 y (nth j (support a n) O) * dot (point X (nth j (support a n) O)) (point X k))). ring.
  - unfold support. rewrite lsum_filter, lsum_seq. apply sumn_ext. intros j Hj. destruct (Qcltb_spec sv_tol (get1 a j)) as [Q|Q]; cbn [ind]; [ring|].
    destruct (TOL j Hj) as [Zj|Zj]; [rewrite Zj; ring|]. apply Qcle_not_lt in Q. contradiction.
Qed.
Lemma sv_tol_pos : 0 < sv_tol.
Proof. reflexivity. Qed.
Lemma fit_intercept m : qp_optimal p a -> (m < n)%nat -> 0 < get1 a m < C ->
  exists s, svm_fit solve C X y = Ok s /\ svm_w s = dual_weights X y a /\
    svm_minimises C X y (svm_w s) (get1 y m - dot (svm_w s) (point X m)) /\
    svm_b s = (get1 y m - dot (svm_w s) (point X m)) +
      lsum (map (fun i => get1 y i * slack X y (svm_w s) (get1 y m - dot (svm_w s) (point X m)) i) (support a n)) / ofN (length (support a n)).
Proof.
  intros HO Hm Im. assert (O := dual_optimal_qp n d X y C p a D EP HO).
  assert (Sm : In m (support a n)). { apply in_support. split; [assumption|]. destruct (TOL m Hm) as [Z|Z]; [|assumption]. rewrite Z in Im. destruct Im. discriminate. }
  assert (HN : support a n <> []) by (intros E; rewrite E in Sm; destruct Sm).
  eexists. split; [apply (fit_value HN)|]. cbn [svm_w svm_b]. split; [reflexivity|]. split.
  - apply (svm_opt C n d X y a D O m Hm Im).
  - set (w := dual_weights X y a). set (b := get1 y m - dot w (point X m)).
    rewrite (lsum_map_ext _ (fun i => b * 1 + get1 y i * slack X y w b i)).
    + rewrite lsum_map_plus, lsum_map_mult_l.
      replace (lsum (map (fun _ : nat => 1) (support a n))) with (ofN (length (support a n))).
      * assert (NZ : ofN (length (support a n)) <> 0).
        { destruct (support a n) as [|z l]; [congruence|]. cbn [length]. rewrite ofN_S. intros E. pose proof (ofN_nonneg (length l)). revert E.
          generalize dependent (ofN (length l)). intros q Q E. assert (Q1 : 0 < 1) by reflexivity. assert (0 < q + 1 \/ True) by auto.
          assert (q = - (1)) by (apply Qcle_antisym; qclra). subst q. revert Q. vm_compute. auto. }
        generalize dependent (ofN (length (support a n))). intros N NZ. field. exact NZ.
      * clear. induction (support a n) as [|z l IH]; [reflexivity|]. cbn [length map lsum]. rewrite ofN_S, IH. ring.
    + intros i I. apply in_support in I. destruct I as [Hi Hs].
      rewrite Qcmult_1_r. apply (support_intercept C n d X y a D O m Hm Im i Hi). apply Qclt_trans with sv_tol; [apply sv_tol_pos|assumption].
Qed.
Lemma fit_margin_only m : qp_optimal p a -> (m < n)%nat -> 0 < get1 a m -> (forall i, (i < n)%nat -> get1 a i < C) ->
  exists s, svm_fit solve C X y = Ok s /\ svm_minimises C X y (svm_w s) (svm_b s).
Proof.
  intros HO Hm Pm HC. assert (Im : 0 < get1 a m < C) by auto.
  destruct (fit_intercept m HO Hm Im) as (s & E & EW & MIN & EB). exists s. split; [assumption|].
  assert (O := dual_optimal_qp n d X y C p a D EP HO). rewrite EW in *.
  rewrite (lsum_map_ext _ (fun i => 0)) in EB.
  - rewrite lsum_map_0 in EB. unfold Qcdiv in EB. rewrite Qcmult_0_l, Qcplus_0_r in EB. rewrite EB. assumption.
  - intros i I. apply in_support in I. destruct I as [Hi Hs].
    assert (Pi : 0 < get1 a i) by (apply Qclt_trans with sv_tol; [apply sv_tol_pos|assumption]).
    pose proof (support_intercept C n d X y a D O m Hm Im i Hi Pi) as S1. pose proof (interior_intercept C n d X y a D O m Hm Im i Hi (conj Pi (HC i Hi))) as S2.
    rewrite S2 in S1. revert S1. clear. intros S1. apply (f_equal (fun u => u - (get1 y m - dot (dual_weights X y a) (point X m)))) in S1.
    match type of S1 with ?l = ?r => replace l with 0 in S1 by ring end. transitivity (get1 y m - dot (dual_weights X y a) (point X m) + get1 y i * slack X y (dual_weights X y a) (get1 y m - dot (dual_weights X y a) (point X m)) i - (get1 y m - dot (dual_weights X y a) (point X m))); [ring|now symmetry].
Qed.
End Fit.

(** only one class: every feasible point is zero, and fit divides by zero *)
Lemma fit_one_class solve C n d X y c : svm_data n d X y -> (forall i, (i < n)%nat -> get1 y i = c) ->
  (forall q x, solve q = Ok x -> qp_feasible q x) -> (exists p a, svm_problem X y C = Ok p /\ solve p = Ok a) ->
  svm_fit solve C X y = Err ZeroDivisionError.
Proof.
  intros D HC HS (p & a & EP & ES). pose proof (HS p a ES) as F.
  destruct (svm_problem_ok n d X y C D) as (p' & E' & HF & _). rewrite EP in E'. injection E' as <-. apply HF in F.
  destruct F as (La & HB & HSum). pose proof D as (_ & Hr & _ & _ & Hy). rewrite Hr in *.
  assert (Z : forall i, (i < n)%nat -> get1 a i = 0).
  { destruct n as [|n']; [intros; lia|]. rewrite (sumn_ext _ _ (fun i => c * get1 a i)) in HSum by (intros i Hi; rewrite HC by assumption; ring).
    rewrite sumn_mult_l in HSum. apply Qcmult_integral in HSum. destruct HSum as [Z|Z].
    - pose proof (Hy 0%nat ltac:(lia)) as Q. rewrite HC, Z in Q by lia. destruct Q; discriminate.
    - intros i Hi. apply (sumn_eq0 (S n') (get1 a)); auto. intros j Hj. now apply HB. }
  unfold svm_fit. rewrite EP. cbn [bind]. rewrite ES. cbn [bind]. rewrite La, Hr, Nat.eqb_refl. cbn [ensure bind].
  fold (support a n). assert (E : support a n = []).
  { destruct (support a n) as [|i l] eqn:E; [reflexivity|]. assert (I : In i (support a n)) by (rewrite E; now left).
    apply in_support in I. destruct I as [Hi Hs]. rewrite Z in Hs by assumption. discriminate. }
  rewrite E. reflexivity.
Qed.

(** prediction *)
Lemma predict_sign s X r : svm_predict s X = Ok r -> length r = length (mdat X) /\
  forall i, (i < length (mdat X))%nat -> 
    (0 < dot (point X i) (svm_w s) + svm_b s -> get1 r i = 1) /\
    (dot (point X i) (svm_w s) + svm_b s < 0 -> get1 r i = - (1)) /\
    (dot (point X i) (svm_w s) + svm_b s = 0 -> get1 r i = 0).
Proof.
  unfold svm_predict, svm_decision. destruct (mcols X =? length (svm_w s))%nat; [|discriminate]. cbn [ensure bind]. intros E. injection E as <-.
  rewrite map_map, map_length. split; [reflexivity|]. intros i Hi. unfold get1 at 1 2 3. rewrite (nth_map_in _ (mdat X) i []) by assumption.
  fold (point X i). unfold np_sign. set (v := dot (point X i) (svm_w s) + svm_b s). clearbody v.
  destruct (Qcltb_spec 0 v) as [P|P], (Qcltb_spec v 0) as [Q|Q]; repeat split; intros H; try reflexivity; exfalso; subst; try qclra; revert P Q; qclra.
Qed.

(** optimality from a certificate *)
Lemma certificate n d X y C p a w b : svm_data n d X y -> svm_problem X y C = Ok p -> dual_feasible C X y a -> length w = d ->
  svm_objective C X y w b = dual_objective X y a -> qp_optimal p a.
Proof.
  intros D E F Lw EQ. destruct (svm_problem_ok n d X y C D) as (p' & E' & HF & HV). rewrite E in E'. injection E' as <-.
  pose proof D as (_ & Hr & _). split; [now apply HF|]. intros z Hz. apply HF in Hz.
  assert (La : length a = n) by (destruct F; congruence). assert (Lz : length z = n) by (destruct Hz; congruence).
  rewrite !HV by assumption. pose proof (svm_weak_duality C n d X y z w b D Hz Lw) as W. rewrite EQ in W.
  generalize dependent (dual_objective X y z). generalize (dual_objective X y a). intros; qclra.
Qed.
Definition ex22_X : mat := Mat 4 1 [[0]; [ofZ 2]; [- (1)]; [0]].
Definition ex22_y : list Qc := [- (1); 1; 1; - (1)].
Definition ex22_a : list Qc := [Q2Qc (3 # 2); Q2Qc (3 # 2); ofZ 2; ofZ 2].
Lemma ex22_data : svm_data 4 1 ex22_X ex22_y.
Proof.
  split; [apply mat_okb_ok; reflexivity|]. repeat split. intros i Hi. do 4 (destruct i as [|i]; [unfold ex22_y, get1; cbn [nth]; auto|]). lia.
Qed.
Lemma ex22_feasible : dual_feasible (ofZ 2) ex22_X ex22_y ex22_a.
Proof.
  split; [reflexivity|]. split.
  - intros i Hi. cbn [mrows ex22_X] in Hi. do 4 (destruct i as [|i]; [split; vm_compute; discriminate|]). lia.
  - apply Qc_is_canon. vm_compute. reflexivity.
Qed.
Lemma ex22_optimal : exists p, svm_problem ex22_X ex22_y (ofZ 2) = Ok p /\ qp_optimal p ex22_a.
Proof.
  destruct (svm_problem_ok 4 1 ex22_X ex22_y (ofZ 2) ex22_data) as (p & E & _). exists p. split; [exact E|].
  apply (certificate 4 1 ex22_X ex22_y (ofZ 2) p ex22_a [1] (- (1)) ex22_data E ex22_feasible eq_refl).
  apply Qc_is_canon. vm_compute. reflexivity.
Qed.
Lemma ex22_intercept_wrong :
  (exists p, svm_problem ex22_X ex22_y (ofZ 2) = Ok p /\ qp_optimal p ex22_a) /\
  exists s, svm_fit (fun _ => Ok ex22_a) (ofZ 2) ex22_X ex22_y = Ok s /\
    svm_minimises (ofZ 2) ex22_X ex22_y (svm_w s) (- (1)) /\
    svm_objective (ofZ 2) ex22_X ex22_y (svm_w s) (- (1)) + 1 < svm_objective (ofZ 2) ex22_X ex22_y (svm_w s) (svm_b s) /\
    svm_predict s (Mat 1 1 [[Q2Qc (1 # 2)]]) = Ok [1] /\ dot (svm_w s) [Q2Qc (1 # 2)] - 1 < 0.
Proof.
  split; [exact ex22_optimal|]. destruct ex22_optimal as (p & EP & HO).
  assert (TOL : forall i, (i < 4)%nat -> get1 ex22_a i = 0 \/ sv_tol < get1 ex22_a i).
  { intros i Hi. do 4 (destruct i as [|i]; [right; reflexivity|]). lia. }
  destruct (fit_intercept (fun _ => Ok ex22_a) (ofZ 2) 4 1 ex22_X ex22_y ex22_a p ex22_data EP eq_refl eq_refl TOL 0 HO ltac:(lia)) as (s & E & EW & MIN & EB).
  { split; reflexivity. }
  exists s. split; [exact E|].
  assert (W1 : svm_w s = [1]). { rewrite EW. apply vec_ext; [reflexivity|]. intros i Hi. cbn [dual_length] in Hi. destruct i as [|i]; [|cbn in Hi; lia]. apply Qc_is_canon. vm_compute. reflexivity. }
  rewrite W1 in *. replace (get1 ex22_y 0 - dot [1] (point ex22_X 0)) with (- (1)) in * by (apply Qc_is_canon; vm_compute; reflexivity).
  assert (B1 : svm_b s = Q2Qc (-1 # 4)). { rewrite EB. apply Qc_is_canon. vm_compute. reflexivity. }
  split; [exact MIN|]. rewrite B1. split; [vm_compute; reflexivity|]. split; [|vm_compute; reflexivity].
  unfold svm_predict, svm_decision. rewrite W1, B1. cbn [mcols length Nat.eqb ensure bind map mdat].
  replace (np_sign (dot [Q2Qc (1 # 2)] [1] + Q2Qc (-1 # 4))) with 1; [reflexivity|].
  unfold np_sign. destruct (Qcltb_spec 0 (dot [Q2Qc (1 # 2)] [1] + Q2Qc (-1 # 4))) as [Q|Q]; [reflexivity|]. exfalso. apply Q. vm_compute. reflexivity.
Qed.
(** two points, both on the margin *)
Definition ex22_X2 : mat := Mat 2 1 [[0]; [ofZ 2]].
Definition ex22_y2 : list Qc := [- (1); 1].
Definition ex22_a2 : list Qc := [Q2Qc (1 # 2); Q2Qc (1 # 2)].
Lemma ex22_two : svm_data 2 1 ex22_X2 ex22_y2 /\
  (exists p, svm_problem ex22_X2 ex22_y2 1 = Ok p /\ qp_optimal p ex22_a2) /\
  (forall i, (i < 2)%nat -> sv_tol < get1 ex22_a2 i) /\ (forall i, (i < 2)%nat -> 0 < get1 ex22_a2 i < 1).
Proof.
  assert (D : svm_data 2 1 ex22_X2 ex22_y2).
  { split; [apply mat_okb_ok; reflexivity|]. repeat split. intros i Hi. do 2 (destruct i as [|i]; [unfold ex22_y2, get1; cbn [nth]; auto|]). lia. }
  split; [exact D|]. split; [|split].
  - destruct (svm_problem_ok 2 1 ex22_X2 ex22_y2 1 D) as (p & E & _). exists p. split; [exact E|].
    apply (certificate 2 1 ex22_X2 ex22_y2 1 p ex22_a2 [1] (- (1)) D E); [|reflexivity|apply Qc_is_canon; vm_compute; reflexivity].
    split; [reflexivity|]. split.
    + intros i Hi. cbn [mrows ex22_X2] in Hi. do 2 (destruct i as [|i]; [split; vm_compute; discriminate|]). lia.
    + apply Qc_is_canon. vm_compute. reflexivity.
  - intros i Hi. do 2 (destruct i as [|i]; [reflexivity|]). lia.
  - intros i Hi. do 2 (destruct i as [|i]; [split; reflexivity|]). lia.
Qed.
