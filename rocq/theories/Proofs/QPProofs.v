From Verif Require Import Model.QP Spec.QPSpec Proofs.Arrays.

Lemma Qceq_le (a b : Qc) : a = b -> a <= b.
Proof. intros ->. apply Qcle_refl. Qed.

(** ** combinations of rows *)
Definition comb (d : nat) (a : list Qc) (psis : list (list Qc)) : list Qc :=
  tab1 d (fun j => sumn (length psis) (fun c => get1 a c * get1 (nth c psis []) j)).

Lemma vstack_ok d psis : psis <> [] -> Forall (fun v => length v = d) psis -> vstack psis = Ok (Mat (length psis) d psis).
Proof.
  intros HN HF. destruct psis as [|r l]; [congruence|]. unfold vstack. inversion HF; subst.
  rewrite (proj2 (forallb_forall _ _)); auto. intros v Hv. apply Nat.eqb_eq. rewrite Forall_forall in HF. auto.
Qed.
Lemma vstack_inv psis Psi : vstack psis = Ok Psi ->
  psis <> [] /\ Psi = Mat (length psis) (length (hd [] psis)) psis /\ Forall (fun v => length v = length (hd [] psis)) psis.
Proof.
  unfold vstack. destruct psis as [|r l]; [discriminate|]. destruct (forallb _ _) eqn:E; [|discriminate].
  intro H. injection H as <-. split; [discriminate|]. split; auto. apply Forall_forall. intros v Hv.
  rewrite forallb_forall in E. apply E in Hv. apply Nat.eqb_eq in Hv. exact Hv.
Qed.
Lemma weights_comb d a psis : psis <> [] -> Forall (fun v => length v = d) psis -> length a = length psis ->
  weights a psis = Ok (comb d a psis).
Proof.
  intros HN HF HL. unfold weights. rewrite (vstack_ok d) by auto. cbn [bind mrows mcols]. rewrite HL, Nat.eqb_refl. reflexivity.
Qed.
Lemma comb_length d a psis : length (comb d a psis) = d.
Proof. apply tab1_length. Qed.
Lemma dot_comb d a psis v : Forall (fun u => length u = d) psis -> length v = d ->
  dot (comb d a psis) v = sumn (length psis) (fun c => get1 a c * dot (nth c psis []) v).
Proof.
  intros HF Hv. rewrite dot_get by (rewrite comb_length; auto). rewrite comb_length. unfold comb.
  transitivity (sumn d (fun i => sumn (length psis) (fun c => get1 a c * (get1 (nth c psis []) i * get1 v i)))).
  - apply sumn_ext. intros i Hi. rewrite get1_tab1 by auto. rewrite <- sumn_mult_r. apply sumn_ext. intros; ring.
  - rewrite sumn_swap. apply sumn_ext. intros c Hc.
    assert (L : length (nth c psis []) = d). { rewrite Forall_forall in HF. apply HF, nth_In. auto. }
    rewrite dot_get by congruence. rewrite L, sumn_mult_l. reflexivity.
Qed.
Lemma dot_comb_sum d a psis v : Forall (fun u => length u = d) psis -> length v = d -> length a = length psis ->
  dot (comb d a psis) v = dot a (map (fun u => dot u v) psis).
Proof.
  intros HF Hv Ha. rewrite dot_comb by auto. rewrite dot_get by (rewrite map_length; auto). rewrite Ha.
  apply sumn_ext. intros c Hc. unfold get1 at 3. rewrite (nth_map_in _ psis c []) by auto. reflexivity.
Qed.
Lemma comb_lin d a b psis t : length a = length psis -> length b = length psis ->
  comb d (vadd a (vscale t b)) psis = vadd (comb d a psis) (vscale t (comb d b psis)).
Proof.
  intros Ha Hb. apply vec_ext.
  - rewrite vadd_length; rewrite ?vscale_length, !comb_length; auto.
  - intros i Hi. rewrite comb_length in Hi. rewrite get1_vadd by (rewrite vscale_length, !comb_length; auto).
    rewrite get1_vscale. unfold comb. rewrite !get1_tab1 by auto. rewrite <- sumn_mult_l, <- sumn_plus.
    apply sumn_ext. intros c Hc. rewrite get1_vadd by (rewrite vscale_length; congruence). rewrite get1_vscale. ring.
Qed.

(** ** the objective *)
Lemma gram_value d psis a reg : Forall (fun u => length u = d) psis -> length a = length psis ->
  dot a (map (fun r => dot r a) (mdat (gram (Mat (length psis) d psis) reg))) = normsq (comb d a psis) + reg * normsq a.
Proof.
  intros HF Ha. unfold gram, mtab. cbn [mdat mrows mcols]. unfold mget, get2. cbn [mdat].
  set (n := length psis) in *.
  transitivity (sumn n (fun i => get1 a i * sumn n (fun j => (dot (nth i psis []) (nth j psis []) + (if (i =? j)%nat then reg else 0)) * get1 a j))).
  - rewrite dot_get by (rewrite map_length, tab2_length; auto). rewrite Ha. apply sumn_ext. intros i Hi. f_equal.
    unfold get1 at 1. rewrite (nth_map_in _ _ i []) by (rewrite tab2_length; auto). rewrite nth_tab2 by auto.
    rewrite dot_get by (rewrite tab1_length; auto). rewrite tab1_length. apply sumn_ext. intros j Hj. rewrite get1_tab1 by auto.
    f_equal. f_equal.
    assert (Li : length (nth i psis []) = d). { rewrite Forall_forall in HF. apply HF, nth_In. auto. }
    assert (Lj : length (nth j psis []) = d). { rewrite Forall_forall in HF. apply HF, nth_In. auto. }
    rewrite dot_get by congruence. rewrite Li. reflexivity.
  - transitivity (sumn n (fun i => get1 a i * sumn n (fun j => get1 a j * dot (nth i psis []) (nth j psis []))) +
                  reg * sumn n (fun i => get1 a i * get1 a i)).
    + rewrite <- sumn_mult_l, <- sumn_plus. apply sumn_ext. intros i Hi.
      rewrite (sumn_ext n _ (fun j => get1 a j * dot (nth i psis []) (nth j psis []) + ind (i =? j)%nat * (reg * get1 a j))).
      * rewrite sumn_plus. rewrite (sumn_pick' n i (fun j => reg * get1 a j)) by auto. ring.
      * intros j Hj. destruct (i =? j)%nat; unfold ind; ring.
    + f_equal.
      * unfold normsq. rewrite dot_comb by (auto; apply comb_length). apply sumn_ext. intros i Hi. f_equal.
        rewrite dot_comm, dot_comb; auto. 2:{ rewrite Forall_forall in HF. apply HF, nth_In. auto. }
        apply sumn_ext. intros j Hj. rewrite (dot_comm (nth i psis [])). reflexivity.
      * unfold normsq. rewrite dot_get by auto. rewrite Ha. reflexivity.
Qed.

Lemma dot_unit n i x : length x = n -> (i < n)%nat -> dot (tab1 n (fun j => if (i =? j)%nat then - (1) else 0)) x = - get1 x i.
Proof.
  intros Hx Hi. rewrite dot_get by (rewrite tab1_length; auto). rewrite tab1_length.
  rewrite (sumn_ext n _ (fun j => ind (i =? j)%nat * - get1 x j)).
  - apply (sumn_pick' n i (fun j => - get1 x j)). auto.
  - intros j Hj. rewrite get1_tab1 by auto. destruct (i =? j)%nat; unfold ind; ring.
Qed.
Lemma neg_rows_inv psis d neg N : Forall (fun u => length u = d) psis -> neg_rows (Mat (length psis) d psis) neg = Ok N ->
  mcols N = length psis /\ length (mdat N) = mrows N /\
  match neg with
  | None => mrows N = O
  | Some idx => mrows N = length idx /\ forall r, (r < length idx)%nat -> (nth r idx O < d)%nat /\
       forall a, length a = length psis -> dot (nth r (mdat N) []) a = get1 (comb d a psis) (nth r idx O)
  end.
Proof.
  intros HF. unfold neg_rows. destruct neg as [idx|].
  - unfold take_rows. destruct (forallb _ idx) eqn:E; [|discriminate]. intro H. injection H as <-. cbn [mcols mrows mdat mat_T mtab].
    split; auto. split; [rewrite map_length; auto|]. split; auto. intros r Hr.
    assert (B : (nth r idx O < d)%nat).
    { rewrite forallb_forall in E. specialize (E (nth r idx O) (nth_In _ _ Hr)). apply Nat.ltb_lt in E. exact E. }
    split; auto. intros a Ha. rewrite (nth_map_in _ idx r O) by auto. unfold mat_T, mtab. cbn [mdat mrows mcols].
    rewrite nth_tab2 by auto. unfold comb. rewrite get1_tab1 by auto. rewrite dot_get by (rewrite tab1_length; auto).
    rewrite tab1_length. apply sumn_ext. intros c Hc. rewrite get1_tab1 by auto. unfold mget, get2, get1. cbn [mdat]. ring.
  - intro H. injection H as <-. auto.
Qed.

(** what feasibility means for the n-slack problem *)
Lemma nslack_feasible_iff C neg n psis losses sizes reg p d a :
  psis <> [] -> Forall (fun u => length u = d) psis -> length losses = length psis ->
  n_slack_problem C neg n psis losses sizes reg = Ok p ->
  qp_feasible p a <->
    length a = length psis /\ (forall c, (c < length psis)%nat -> 0 <= get1 a c) /\
    (forall i, (i < n)%nat -> sumn (length psis) (fun c => ind (nth c (owners sizes) O =? i)%nat * get1 a c) <= C) /\
    (forall idx, neg = Some idx -> forall i, In i idx -> get1 (comb d a psis) i <= 0).
Proof.
  intros HN HF HL HP. unfold n_slack_problem in HP. rewrite (vstack_ok d) in HP by auto. cbn [bind mrows] in HP.
  destruct (length sizes <=? n)%nat; [|discriminate]. cbn [ensure bind] in HP.
  apply bind_ok in HP. destruct HP as [N [EN HP]]. injection HP as <-.
  destruct (neg_rows_inv _ _ _ _ HF EN) as [CN [LN RN]].
  unfold qp_feasible. cbn [qp_q qp_G qp_h qp_A qp_b mrows mdat mat_stack minus_identity mtab]. rewrite vscale_length, HL.
  set (m := length psis) in *.
  assert (R1 : forall r, (r < m)%nat -> nth r ((tab2 m m (fun i j => if (i =? j)%nat then - (1) else 0) ++ tab2 n m (fun i j => ind (nth j (owners sizes) O =? i)%nat)) ++ mdat N) [] = tab1 m (fun j => if (r =? j)%nat then - (1) else 0)).
  { intros r Hr. rewrite !app_nth1 by (rewrite ?app_length, !tab2_length; lia). apply nth_tab2; auto. }
  assert (R2 : forall i, (i < n)%nat -> nth (m + i) ((tab2 m m (fun i j => if (i =? j)%nat then - (1) else 0) ++ tab2 n m (fun i j => ind (nth j (owners sizes) O =? i)%nat)) ++ mdat N) [] = tab1 m (fun j => ind (nth j (owners sizes) O =? i)%nat)).
  { intros i Hi. rewrite app_nth1 by (rewrite app_length, !tab2_length; lia). rewrite app_nth2 by (rewrite tab2_length; lia).
    rewrite tab2_length, Nat.add_comm, Nat.add_sub. apply nth_tab2; auto. }
  assert (R3 : forall i, nth (m + n + i) ((tab2 m m (fun i j => if (i =? j)%nat then - (1) else 0) ++ tab2 n m (fun i j => ind (nth j (owners sizes) O =? i)%nat)) ++ mdat N) [] = nth i (mdat N) []).
  { intros i. rewrite app_nth2 by (rewrite app_length, !tab2_length; lia). rewrite app_length, !tab2_length. f_equal. lia. }
  assert (H1 : forall r, (r < m)%nat -> get1 (vzero m ++ repeat C n ++ vzero (mrows N)) r = 0).
  { intros r Hr. unfold get1. rewrite app_nth1 by (rewrite vzero_length; auto). apply get1_vzero. }
  assert (H2 : forall i, (i < n)%nat -> get1 (vzero m ++ repeat C n ++ vzero (mrows N)) (m + i) = C).
  { intros i Hi. unfold get1. rewrite app_nth2 by (rewrite vzero_length; lia). rewrite vzero_length, Nat.add_comm, Nat.add_sub.
    rewrite app_nth1 by (rewrite repeat_length; auto). rewrite nth_indep with (d' := C) by (rewrite repeat_length; auto). apply nth_repeat. }
  assert (H3 : forall i, get1 (vzero m ++ repeat C n ++ vzero (mrows N)) (m + n + i) = 0).
  { intros i. unfold get1. rewrite app_nth2 by (rewrite vzero_length; lia). rewrite vzero_length.
    rewrite app_nth2 by (rewrite repeat_length; lia). rewrite repeat_length. apply get1_vzero. }
  split.
  - intros [La [HG _]]. split; auto. split; [|split].
    + intros c Hc. specialize (HG c ltac:(lia)). rewrite R1, H1, dot_unit in HG by auto. qclra.
    + intros i Hi. specialize (HG (m + i)%nat ltac:(lia)). rewrite R2, H2 in HG by auto.
      rewrite dot_get in HG by (rewrite tab1_length; auto). rewrite tab1_length in HG.
      rewrite (sumn_ext m _ (fun c => ind (nth c (owners sizes) O =? i)%nat * get1 a c)) in HG; auto.
      intros c Hc. rewrite get1_tab1 by auto. reflexivity.
    + intros idx -> i Hi. destruct RN as [RM RN]. apply (In_nth _ _ O) in Hi. destruct Hi as [r [Hr Er]]. subst i.
      destruct (RN r Hr) as [_ RN']. rewrite <- (RN' a La). specialize (HG (m + n + r)%nat ltac:(lia)).
      rewrite R3, H3 in HG. exact HG.
  - intros [La [H0 [HB HNeg]]]. split; auto. split.
    + intros r Hr. destruct (Nat.lt_ge_cases r m) as [A|A].
      * rewrite R1, H1, dot_unit by auto. specialize (H0 r A). qclra.
      * destruct (Nat.lt_ge_cases r (m + n)) as [B|B].
        -- replace r with (m + (r - m))%nat by lia. rewrite R2, H2 by lia. rewrite dot_get by (rewrite tab1_length; auto).
           rewrite tab1_length. eapply Qcle_trans; [|apply (HB (r - m)%nat); lia]. apply Qceq_le, sumn_ext.
           intros c Hc. rewrite get1_tab1 by auto. reflexivity.
        -- replace r with (m + n + (r - m - n))%nat by lia. rewrite R3, H3. destruct neg as [idx|]; [|exfalso; lia].
           destruct RN as [RM RN]. destruct (RN (r - m - n)%nat ltac:(lia)) as [_ RN']. rewrite (RN' a La).
           apply (HNeg idx eq_refl). apply nth_In. lia.
    + intros r Hr. lia.
Qed.

(** the objective value of both problems *)
Lemma qp_obj d psis losses a reg (G : mat) h A b : Forall (fun u => length u = d) psis -> length a = length psis ->
  qp_value (QP (gram (Mat (length psis) d psis) reg) (vscale (- (1)) losses) G h A b) a =
  (normsq (comb d a psis) + reg * normsq a) / (1 + 1) - dot losses a.
Proof.
  intros HF Ha. unfold qp_value. cbn [qp_P qp_q]. rewrite gram_value by auto. rewrite dot_vscale_l. ring.
Qed.

(** ** owners *)
Lemma owners_from_length i sizes : length (owners_from i sizes) = fold_right Nat.add O sizes.
Proof. revert i. induction sizes; intro i; simpl; auto. rewrite app_length, repeat_length, IHsizes. reflexivity. Qed.
Lemma owners_from_nth {A} (groups : list (list A)) i c (da : A) : (c < length (concat groups))%nat ->
  exists j, (j < length groups)%nat /\ nth c (owners_from i (map (@length A) groups)) O = (i + j)%nat /\
    In (nth c (concat groups) da) (nth j groups []).
Proof.
  revert i c. induction groups as [|g gs IH]; intros i c Hc; [simpl in Hc; lia|].
  cbn [map owners_from concat] in *. rewrite app_length in Hc. destruct (Nat.lt_ge_cases c (length g)) as [H|H].
  - exists O. rewrite !app_nth1 by (rewrite ?repeat_length; auto). split; [simpl; lia|]. split.
    + rewrite nth_indep with (d' := i) by (rewrite repeat_length; auto). rewrite nth_repeat. lia.
    + simpl. apply nth_In. auto.
  - destruct (IH (S i) (c - length g)%nat ltac:(lia)) as [j [Hj [E1 E2]]]. exists (S j).
    rewrite !app_nth2 by (rewrite ?repeat_length; auto). rewrite repeat_length. split; [simpl; lia|]. split.
    + rewrite E1. lia.
    + exact E2.
Qed.

Lemma sumn_owner n m (own : nat -> nat) (a : nat -> Qc) (xi : nat -> Qc) : (forall c, (c < m)%nat -> (own c < n)%nat) ->
  sumn m (fun c => a c * xi (own c)) = sumn n (fun i => xi i * sumn m (fun c => ind (own c =? i)%nat * a c)).
Proof.
  intro H. rewrite (sumn_ext n _ (fun i => sumn m (fun c => ind (own c =? i)%nat * (xi i * a c)))).
  - rewrite sumn_swap. apply sumn_ext. intros c Hc. rewrite (sumn_pick' n (own c) (fun i => xi i * a c)) by auto. ring.
  - intros i Hi. rewrite <- sumn_mult_l. apply sumn_ext. intros; ring.
Qed.

Lemma Forall2_nth {A B} (R : A -> B -> Prop) l1 l2 i da db : Forall2 R l1 l2 -> (i < length l1)%nat -> R (nth i l1 da) (nth i l2 db).
Proof.
  intro H. revert i. induction H; intros i Hi; [simpl in Hi; lia|]. destruct i; simpl in *; auto. apply IHForall2. lia.
Qed.

Lemma Forall2_len {A B} (R : A -> B -> Prop) l1 l2 : Forall2 R l1 l2 -> length l1 = length l2.
Proof. induction 1; simpl; congruence. Qed.
(** ** weak duality: sum of a_c * violation *)
Lemma violation_sum d w a psis losses : Forall (fun u => length u = d) psis -> length a = length psis -> length losses = length psis ->
  length w = d ->
  sumn (length psis) (fun c => get1 a c * violation w (nth c psis [], get1 losses c)) = dot losses a - dot w (comb d a psis).
Proof.
  intros HF Ha HL Hw. rewrite (dot_comm w), dot_comb by auto. rewrite (dot_get losses a) by congruence. rewrite HL, <- sumn_minus.
  apply sumn_ext. intros c Hc. unfold violation. cbn [fst snd]. rewrite (dot_comm w). ring.
Qed.
Lemma normsq_vsub a b : length a = length b -> normsq (vsub a b) = normsq a - (1 + 1) * dot a b + normsq b.
Proof. intro H. unfold normsq. rewrite dot_vsub_l, !dot_vsub_r by auto. rewrite (dot_comm b a). ring. Qed.
Lemma half_am a b : length a = length b -> dot a b <= normsq a / (1 + 1) + normsq b / (1 + 1).
Proof.
  intro H. assert (P := normsq_nonneg (vsub a b)). rewrite normsq_vsub in P by auto.
  set (x := normsq a) in *. set (y := normsq b) in *. set (z := dot a b) in *. clearbody x y z.
  replace (x / (1 + 1) + y / (1 + 1)) with ((x + y) / (1 + 1)) by (field; discriminate).
  apply Qcmult_lt_0_le_reg_r with (z := 1 + 1); [reflexivity|].
  replace ((x + y) / (1 + 1) * (1 + 1)) with (x + y) by (field; discriminate).
  replace (z * (1 + 1)) with (z + z) by ring. replace ((1 + 1) * z) with (z + z) in P by ring. qclra.
Qed.

(** any w' with admissible slacks beats any dual feasible point *)
Lemma weak_duality_nslack d C n groups a w' xi :
  let psis := map fst (concat groups) in let losses := map snd (concat groups) in
  Forall (fun u => length u = d) psis -> length a = length psis ->
  (forall c, (c < length psis)%nat -> 0 <= get1 a c) ->
  (forall i, (i < n)%nat -> sumn (length psis) (fun c => ind (nth c (owners (map (@length _) groups)) O =? i)%nat * get1 a c) <= C) ->
  (length groups <= n)%nat -> length w' = d -> covers w' groups xi ->
  dot losses a - normsq (comb d a psis) / (1 + 1) <= C * lsum xi + normsq w' / (1 + 1).
Proof.
  intros psis losses HF Ha H0 HB Hn Hw HC.
  assert (HM : length psis = length (concat groups)) by apply map_length.
  assert (HL : length losses = length psis) by (unfold psis, losses; rewrite !map_length; reflexivity).
  assert (LX : length xi = length groups) by (symmetry; eapply Forall2_len; exact HC).
  assert (OW : forall c, (c < length psis)%nat -> exists j, (j < length groups)%nat /\ nth c (owners (map (@length _) groups)) O = j /\
     violation w' (nth c psis [], get1 losses c) <= get1 xi j /\ 0 <= get1 xi j).
  { intros c Hc. rewrite HM in Hc. destruct (owners_from_nth groups O c ([], 0) Hc) as [j [Hj [E1 E2]]].
    exists j. split; auto. split; [exact E1|].
    destruct (Forall2_nth _ _ _ j [] 0 HC Hj) as [P Q]. split; auto.
    replace (nth c psis [], get1 losses c) with (nth c (concat groups) ([], 0)); [apply Q; auto|].
    unfold psis, losses, get1. rewrite (nth_map_in fst _ c ([], 0)), (nth_map_in snd _ c ([], 0)) by auto.
    destruct (nth c (concat groups) ([], 0)); reflexivity. }
  assert (S1 : sumn (length psis) (fun c => get1 a c * violation w' (nth c psis [], get1 losses c)) <= C * lsum xi).
  { eapply Qcle_trans.
    { apply (sumn_le _ _ (fun c => get1 a c * get1 xi (nth c (owners (map (@length _) groups)) O))). intros c Hc.
      destruct (OW c Hc) as [j [Hj [E [V _]]]]. rewrite E. specialize (H0 c Hc).
      rewrite (Qcmult_comm (get1 a c) (violation _ _)), (Qcmult_comm (get1 a c) (get1 xi j)). apply Qcmult_le_compat_r; auto. }
    rewrite (sumn_owner (length groups)) by (intros c Hc; destruct (OW c Hc) as [j [Hj [E _]]]; rewrite E; auto).
    rewrite lsum_get, LX, <- sumn_mult_l. apply sumn_le. intros i Hi.
    rewrite (Qcmult_comm C). rewrite (Qcmult_comm (get1 xi i) (sumn _ _)), (Qcmult_comm (get1 xi i) C).
    apply Qcmult_le_compat_r; [apply HB; lia|]. destruct (Forall2_nth _ _ _ i [] 0 HC Hi) as [P _]. exact P. }
  rewrite (violation_sum d) in S1 by auto.
  assert (S2 := half_am w' (comb d a psis) ltac:(rewrite comb_length; auto)).
  qclra.
Qed.

(** ** strong duality on the working set *)
Lemma small_t (x k : Qc) : 0 <= k -> (forall t, 0 < t -> t <= 1 -> x * t <= k * t * t) -> x <= 0.
Proof.
  intros Hk H. destruct (Qclt_le_dec 0 x) as [P|P]; auto. exfalso.
  set (t := Qcmin 1 (x / (k + k + 1))).
  assert (Kp : 0 < k + k + 1) by qclra.
  assert (X : 0 < x / (k + k + 1)) by (unfold Qcdiv; apply Qcmult_pos; auto; apply Qcinv_pos; auto).
  assert (T0 : 0 < t). { unfold t, Qcmin. destruct (Qcleb_spec 1 (x / (k + k + 1))); auto. reflexivity. }
  assert (T1 : t <= 1). { unfold t, Qcmin. destruct (Qcleb_spec 1 (x / (k + k + 1))); auto. apply Qcle_refl. apply Qclt_le_weak; auto. }
  assert (T2 : t <= x / (k + k + 1)). { unfold t, Qcmin. destruct (Qcleb_spec 1 (x / (k + k + 1))); auto. apply Qcle_refl. }
  assert (T3 : t * (k + k + 1) <= x).
  { apply Qcle_trans with (x / (k + k + 1) * (k + k + 1)). apply Qcmult_le_compat_r; auto. apply Qclt_le_weak; auto.
    apply Qceq_le. assert (NZ : k + k + 1 <> 0) by (intro E; rewrite E in Kp; discriminate).
    set (z := k + k + 1) in *. clearbody z. field. exact NZ. }
  specialize (H t T0 T1).
  assert (x <= k * t). { apply Qcmult_lt_0_le_reg_r with (z := t); auto. }
  assert (0 <= k * t). { apply Qcmult_nonneg; auto. apply Qclt_le_weak; auto. }
  replace (t * (k + k + 1)) with (k * t + k * t + t) in T3 by ring. set (q := k * t) in *. clearbody q. qclra.
Qed.

(** first-order optimality of a dual point of the problem regularised by [r]: no feasible
    direction has positive slope *)
Lemma normsq_step t a b : length a = length b ->
  normsq (vadd a (vscale t (vsub b a))) = normsq a + (1 + 1) * t * dot a (vsub b a) + t * t * normsq (vsub b a).
Proof.
  intro H. unfold normsq at 1. rewrite dot_vadd_l by (rewrite vscale_length, vsub_length; congruence).
  rewrite !dot_vadd_r by (rewrite vscale_length, vsub_length; congruence).
  rewrite !dot_vscale_l, !dot_vscale_r. rewrite (dot_comm (vsub b a) a). unfold normsq. ring.
Qed.
Lemma comb_vsub d a b psis : length a = length psis -> length b = length psis ->
  comb d (vsub b a) psis = vsub (comb d b psis) (comb d a psis).
Proof.
  intros Ha Hb. apply vec_ext. { rewrite vsub_length; rewrite !comb_length; auto. }
  intros i Hi. rewrite comb_length in Hi. rewrite get1_vsub by (rewrite !comb_length; auto). unfold comb. rewrite !get1_tab1 by auto.
  rewrite <- sumn_minus. apply sumn_ext. intros c Hc. rewrite get1_vsub by congruence. ring.
Qed.
Lemma first_order d psis losses a b r : Forall (fun u => length u = d) psis -> length a = length psis -> length b = length psis ->
  length losses = length psis -> 0 <= r ->
  (forall t, 0 < t -> t <= 1 ->
     dot losses (vadd a (vscale t (vsub b a))) - normsq (comb d (vadd a (vscale t (vsub b a))) psis) / (1 + 1)
       - r * normsq (vadd a (vscale t (vsub b a))) / (1 + 1)
     <= dot losses a - normsq (comb d a psis) / (1 + 1) - r * normsq a / (1 + 1)) ->
  dot losses b - dot (comb d a psis) (comb d b psis) <= dot losses a - normsq (comb d a psis) + r * (dot a b - normsq a).
Proof.
  intros HF Ha Hb HL Hr H.
  assert (Lba : length (vsub b a) = length psis) by (rewrite vsub_length; congruence).
  assert (E := comb_vsub d a b psis Ha Hb).
  set (wa := comb d a psis) in *. set (wb := comb d b psis) in *.
  assert (LA : length wa = d) by apply comb_length. assert (LB : length wb = d) by apply comb_length.
  assert (S : dot losses (vsub b a) - dot wa (vsub wb wa) - r * dot a (vsub b a) <= 0).
  { apply (small_t _ ((normsq (vsub wb wa) + r * normsq (vsub b a)) / (1 + 1))).
    - unfold Qcdiv. apply Qcmult_nonneg; [|discriminate].
      assert (P := normsq_nonneg (vsub wb wa)). assert (Q := Qcmult_nonneg _ _ Hr (normsq_nonneg (vsub b a))).
      set (x := r * normsq (vsub b a)) in *. clearbody x. set (y := normsq (vsub wb wa)) in *. clearbody y. qclra.
    - intros t T0 T1. specialize (H t T0 T1). rewrite comb_lin in H by auto. fold wa in H. rewrite E in H.
      rewrite dot_vadd_r, dot_vscale_r in H by (rewrite vscale_length; congruence).
      rewrite (normsq_step t wa wb), (normsq_step t a b) in H by congruence.
      set (x := normsq (vsub wb wa)) in *. set (y := dot wa (vsub wb wa)) in *. set (z := normsq wa) in *.
      set (u := dot losses (vsub b a)) in *. set (v := dot losses a) in *.
      set (p := dot a (vsub b a)) in *. set (q := normsq (vsub b a)) in *. set (o := normsq a) in *. clearbody x y z u v p q o.
      replace ((z + (1 + 1) * t * y + t * t * x) / (1 + 1)) with (z / (1 + 1) + t * y + t * t * (x / (1 + 1))) in H by (field; discriminate).
      replace (r * (o + (1 + 1) * t * p + t * t * q) / (1 + 1)) with (r * o / (1 + 1) + t * (r * p) + t * t * (r * q / (1 + 1))) in H by (field; discriminate).
      replace ((x + r * q) / (1 + 1) * t * t) with (t * t * (x / (1 + 1)) + t * t * (r * q / (1 + 1))) by (field; discriminate).
      replace ((u - y - r * p) * t) with (t * u - t * y - t * (r * p)) by ring.
      set (e1 := t * t * (x / (1 + 1))) in *. set (e2 := t * t * (r * q / (1 + 1))) in *. set (e3 := t * (r * p)) in *.
      set (e4 := t * y) in *. set (e5 := t * u) in *. set (e6 := z / (1 + 1)) in *. set (e7 := r * o / (1 + 1)) in *.
      clearbody e1 e2 e3 e4 e5 e6 e7. qclra. }
  rewrite !dot_vsub_r in S by congruence. change (dot wa wa) with (normsq wa) in S. change (dot a a) with (normsq a) in S.
  set (x := r * (dot a b - normsq a)) in *. clearbody x. qclra.
Qed.
