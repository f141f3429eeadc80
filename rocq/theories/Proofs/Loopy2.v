(** A sweep of the loopy algorithm leaves every edge settled up to the total change of the messages. *)
From Verif Require Import Model.MaxProd Spec.LoopySpec Proofs.Arrays Proofs.EnergyProofs Proofs.MaxProdProofs Proofs.Loopy.

Lemma Qcabs_le x : - Qcabs x <= x /\ x <= Qcabs x /\ 0 <= Qcabs x.
Proof. unfold Qcabs. destruct (Qcleb_spec 0 x); split; [|split| |split]; qclra. Qed.
Lemma l1norm_nonneg v : 0 <= l1norm v.
Proof. unfold l1norm. apply lsum_nonneg. intros x Hx. apply in_map_iff in Hx. destruct Hx as [z [<- _]]. apply Qcabs_le. Qed.
Lemma l1norm_get v s : - l1norm v <= get1 v s /\ get1 v s <= l1norm v.
Proof.
  revert s. unfold l1norm, get1. induction v as [|x v IH]; intros [|s]; simpl; try (split; apply Qcle_refl).
  - assert (A := Qcabs_le x). assert (B := l1norm_nonneg v). unfold l1norm in B. change (fold_right Qcplus 0 (map Qcabs v)) with (lsum (map Qcabs v)) in *.
    destruct A as [A1 [A2 A3]]. generalize dependent (lsum (map Qcabs v)). intros q _ Hq. split; qclra.
  - assert (A := Qcabs_le x). destruct (IH s) as [B1 B2]. change (fold_right Qcplus 0 (map Qcabs v)) with (lsum (map Qcabs v)) in *.
    destruct A as [A1 [A2 A3]]. generalize dependent (lsum (map Qcabs v)). intros q B1 B2. split; qclra.
Qed.
Lemma scale_le (x N r : Qc) : 0 <= r -> - N <= x -> x <= N -> - (N * r) <= x * r /\ x * r <= N * r.
Proof.
  intros Hr H1 H2. split; [|apply Qcmult_le_compat_r; assumption].
  replace (- (N * r)) with ((- N) * r) by ring. apply Qcmult_le_compat_r; assumption.
Qed.

(** ** one edge *)
Record edge_step (k : nat) (U : mat) (r : Qc) (e a b : nat) (pw : list (list Qc)) (st st' : loopy) (u0 u1 : list Qc) (x0 x1 : Qc) : Prop := {
  es_diff : lp_diff st' = lp_diff st + l1norm u0 + l1norm u1;
  es_fwd : forall t, (t < k)%nat -> get1 (lp_fwd st' e) t = get1 (lp_fwd st e) t + get1 u0 t;
  es_bwd : forall s, (s < k)%nat -> get1 (lp_bwd st' e) s = get1 (lp_bwd st e) s + get1 u1 s;
  es_fwd_other : forall i, i <> e -> lp_fwd st' i = lp_fwd st i;
  es_bwd_other : forall i, i <> e -> lp_bwd st' i = lp_bwd st i;
  es_in : forall v s, (s < k)%nat -> get1 (lp_in st' v) s =
            get1 (lp_in st v) s + ind (b =? v)%nat * get1 u0 s + ind (a =? v)%nat * get1 u1 s;
  es_up0 : forall s t, (s < k)%nat -> (t < k)%nat ->
            get1 (lp_in st a) s + get2 pw s t + mget U a s - get1 (lp_bwd st e) s <= get1 (lp_fwd st e) t + x0 + get1 u0 t * r;
  es_at0 : forall t, (t < k)%nat -> exists s, (s < k)%nat /\
            get1 (lp_in st a) s + get2 pw s t + mget U a s - get1 (lp_bwd st e) s = get1 (lp_fwd st e) t + x0 + get1 u0 t * r;
  es_up1 : forall s t, (s < k)%nat -> (t < k)%nat ->
            get1 (lp_in st b) t + get2 pw s t + mget U b t - get1 (lp_fwd st e) t <= get1 (lp_bwd st e) s + x1 + get1 u1 s * r;
  es_at1 : forall s, (s < k)%nat -> exists t, (t < k)%nat /\
            get1 (lp_in st b) t + get2 pw s t + mget U b t - get1 (lp_fwd st e) t = get1 (lp_bwd st e) s + x1 + get1 u1 s * r;
  es_top0 : exists t, (t < k)%nat /\ get1 (lp_fwd st e) t + get1 u0 t * r = 0;
  es_top1 : np_max (lp_bwd st e) = Ok x1;
  es_len : length u0 = k /\ length u1 = k }.

Lemma get1_damp k d v w i : length v = k -> length w = k -> (i < k)%nat -> get1 (damp d v w) i = d * get1 v i + (1 - d) * get1 w i.
Proof. intros H1 H2 Hi. unfold damp. rewrite get1_vadd by (rewrite !vscale_length; congruence). rewrite !get1_vscale. reflexivity. Qed.

Lemma loopy_edge_steps k U damping r e edges pw st : (0 < k)%nat -> (e < length edges)%nat -> loopy_inv k edges st -> (1 - damping) * r = 1 ->
  exists st' u0 u1 x0 x1, loopy_edge k U damping e (fst (nth e edges (0, 0)%nat)) (snd (nth e edges (0, 0)%nat)) pw st = Ok st' /\
    loopy_inv k edges st' /\ edge_step k U r e (fst (nth e edges (0, 0)%nat)) (snd (nth e edges (0, 0)%nat)) pw st st' u0 u1 x0 x1.
Proof.
  intros Hk He I Hr. destruct (loopy_edge_ok k U damping e edges pw st Hk He I) as [st' [E I']]. exists st'.
  destruct I as [H1 H2 H3 H4]. unfold loopy_edge in E.
  set (a := fst (nth e edges (0, 0)%nat)) in *. set (b := snd (nth e edges (0, 0)%nat)) in *.
  match type of E with context [max_rows k k ?f] => destruct (max_rows_ok k k f Hk) as [m0 [E0 [L0 M0]]] end.
  rewrite E0 in E. cbn [bind] in E. destruct (np_max_ok m0) as [x0 F0]; [lia|]. rewrite F0 in E. cbn [bind] in E.
  set (new0 := damp damping (lp_fwd st e) (sub_max m0 x0)) in *.
  assert (Ln0 : length new0 = k) by (apply damp_length; rewrite ?sub_max_length; auto).
  match type of E with context [max_rows k k ?f] => destruct (max_rows_ok k k f Hk) as [m1 [E1 [L1 M1]]] end.
  rewrite E1 in E. cbn [bind] in E. destruct (np_max_ok (lp_bwd st e)) as [x1 F1]; [rewrite H2; lia|]. rewrite F1 in E. cbn [bind] in E.
  set (new1 := damp damping (lp_bwd st e) (sub_max m1 x1)) in *.
  assert (Ln1 : length new1 = k) by (apply damp_length; rewrite ?sub_max_length; auto).
  set (u0 := vsub new0 (lp_fwd st e)) in *. set (u1 := vsub new1 (lp_bwd st e)) in *.
  assert (Lu0 : length u0 = k) by (unfold u0; rewrite vsub_length; congruence).
  assert (Lu1 : length u1 = k) by (unfold u1; rewrite vsub_length; congruence).
  assert (Hst : st' = Loopy (upd (lp_fwd st) e new0) (upd (lp_bwd st) e new1)
     (upd (upd (lp_in st) b (vadd (lp_in st b) u0)) a (vadd (upd (lp_in st) b (vadd (lp_in st b) u0) a) u1)) (lp_diff st + l1norm u0 + l1norm u1))
    by congruence.
  clear E. exists u0, u1, x0, x1. split; [rewrite Hst; unfold loopy_edge; rewrite E0; cbn [bind]; rewrite F0; cbn [bind]; fold new0; fold u0; rewrite E1; cbn [bind]; rewrite F1; reflexivity|].
  split; [exact I'|].
  assert (G0 : forall t, (t < k)%nat -> get1 u0 t = (1 - damping) * (get1 m0 t - x0 - get1 (lp_fwd st e) t)).
  { intros t Ht. unfold u0. rewrite get1_vsub by congruence. unfold new0. rewrite (get1_damp k) by (rewrite ?sub_max_length; auto).
    rewrite get1_sub_max by lia. ring. }
  assert (G1 : forall t, (t < k)%nat -> get1 u1 t = (1 - damping) * (get1 m1 t - x1 - get1 (lp_bwd st e) t)).
  { intros t Ht. unfold u1. rewrite get1_vsub by congruence. unfold new1. rewrite (get1_damp k) by (rewrite ?sub_max_length; auto).
    rewrite get1_sub_max by lia. ring. }
  assert (B0 : forall t, (t < k)%nat -> get1 m0 t = get1 (lp_fwd st e) t + x0 + get1 u0 t * r).
  { intros t Ht. rewrite (G0 t Ht). replace ((1 - damping) * (get1 m0 t - x0 - get1 (lp_fwd st e) t) * r) with
      (((1 - damping) * r) * (get1 m0 t - x0 - get1 (lp_fwd st e) t)) by ring. rewrite Hr. ring. }
  assert (B1 : forall t, (t < k)%nat -> get1 m1 t = get1 (lp_bwd st e) t + x1 + get1 u1 t * r).
  { intros t Ht. rewrite (G1 t Ht). replace ((1 - damping) * (get1 m1 t - x1 - get1 (lp_bwd st e) t) * r) with
      (((1 - damping) * r) * (get1 m1 t - x1 - get1 (lp_bwd st e) t)) by ring. rewrite Hr. ring. }
  assert (J1 : forall t, (t < k)%nat -> get1 (upd (lp_in st) b (vadd (lp_in st b) u0) b) t - get1 new0 t = get1 (lp_in st b) t - get1 (lp_fwd st e) t).
  { intros t Ht. unfold upd. rewrite Nat.eqb_refl. rewrite get1_vadd by (rewrite H3; congruence). unfold u0. rewrite get1_vsub by congruence. ring. }
  rewrite Hst. constructor; cbn [lp_fwd lp_bwd lp_in lp_diff].
  - reflexivity.
  - intros t Ht. unfold upd. rewrite Nat.eqb_refl. unfold u0. rewrite get1_vsub by congruence. ring.
  - intros t Ht. unfold upd. rewrite Nat.eqb_refl. unfold u1. rewrite get1_vsub by congruence. ring.
  - intros i Hi. unfold upd. apply Nat.eqb_neq in Hi. rewrite Hi. reflexivity.
  - intros i Hi. unfold upd. apply Nat.eqb_neq in Hi. rewrite Hi. reflexivity.
  - intros v s Hs.
    assert (Q : forall v, length (upd (lp_in st) b (vadd (lp_in st b) u0) v) = k /\ get1 (upd (lp_in st) b (vadd (lp_in st b) u0) v) s = get1 (lp_in st v) s + ind (b =? v)%nat * get1 u0 s).
    { intro w. unfold upd. rewrite (Nat.eqb_sym w b). destruct (Nat.eqb_spec b w) as [<-|].
      - split; [rewrite vadd_length; rewrite H3; congruence|]. rewrite get1_vadd by (rewrite H3; congruence). unfold ind. ring.
      - split; [apply H3|]. unfold ind. ring. }
    unfold upd at 1. rewrite (Nat.eqb_sym v a). destruct (Nat.eqb_spec a v) as [<-|].
    + rewrite get1_vadd by (destruct (Q a); congruence). rewrite (proj2 (Q a)). unfold ind at 3. ring.
    + rewrite (proj2 (Q v)). unfold ind at 3. ring.
  - intros s t Hs Ht. rewrite <- (B0 t Ht). apply (proj1 (M0 t Ht) s Hs).
  - intros t Ht. destruct (proj2 (M0 t Ht)) as [s [Hs Es]]. exists s. split; [exact Hs|]. rewrite <- (B0 t Ht), Es. reflexivity.
  - intros s t Hs Ht. rewrite <- (B1 s Hs). assert (Q := proj1 (M1 s Hs) t Ht). cbv beta in Q. assert (J := J1 t Ht). clear - Q J.
    eapply Qcle_trans; [|exact Q]. qclra.
  - intros s Hs. destruct (proj2 (M1 s Hs)) as [t [Ht Es]]. exists t. split; [exact Ht|]. rewrite <- (B1 s Hs), Es.
    assert (J := J1 t Ht). clear - J. qclra.
  - destruct (np_max_spec _ _ F0) as [T _]. apply (In_nth _ _ 0) in T. destruct T as [t [Ht Et]]. rewrite L0 in Ht.
    exists t. split; [exact Ht|]. change (get1 m0 t = x0) in Et. assert (Q := B0 t Ht). rewrite Et in Q. clear - Q. qclra.
  - exact F1.
  - split; assumption.
Qed.

Section Sweep.
Variables (n k : nat) (U : mat) (pws : list (list (list Qc))) (edges : list (nat * nat)) (damping r : Qc).
Hypothesis Hk : (0 < k)%nat.
Hypothesis Hd : 0 <= damping.
Hypothesis Hr : (1 - damping) * r = 1.
Hypothesis Hr1 : 1 <= r.
Let P : nat -> nat -> nat -> Qc := fun e => get2 (nth e pws []).

Lemma belief_in st v s : loopy_inv k edges st -> (s < k)%nat ->
  loopy_belief edges (mget U) (lp_fwd st) (lp_bwd st) v s = get1 (lp_in st v) s + mget U v s.
Proof. intros I Hs. unfold loopy_belief. rewrite (lv_sum _ _ _ I v s Hs). reflexivity. Qed.

Lemma settled_mono fwd bwd d d' e : d <= d' -> settled k edges (mget U) P fwd bwd d e -> settled k edges (mget U) P fwd bwd d' e.
Proof.
  intros Hdd [c0 [c1 [A1 [A2 [B1 B2]]]]]. exists c0, c1. split; [|split; [|split]].
  - intros s t Hs Ht. specialize (A1 s t Hs Ht). clear - A1 Hdd. qclra.
  - intros t Ht. destruct (A2 t Ht) as [s [Hs L]]. exists s. split; [exact Hs|]. clear - L Hdd. qclra.
  - intros s t Hs Ht. specialize (B1 s t Hs Ht). clear - B1 Hdd. qclra.
  - intros t Ht. destruct (B2 t Ht) as [s [Hs L]]. exists s. split; [exact Hs|]. clear - L Hdd. qclra.
Qed.

(** The edge that was just processed. *)
Lemma settled_here e st st' u0 u1 x0 x1 : loopy_inv k edges st' ->
  edge_step k U r e (fst (nth e edges (0, 0)%nat)) (snd (nth e edges (0, 0)%nat)) (nth e pws []) st st' u0 u1 x0 x1 ->
  settled k edges (mget U) P (lp_fwd st') (lp_bwd st') ((l1norm u0 + l1norm u1) * r) e.
Proof.
  intros I' S. set (a := fst (nth e edges (0, 0)%nat)) in *. set (b := snd (nth e edges (0, 0)%nat)) in *.
  assert (R0 : 0 <= r - 1) by (clear - Hr1; qclra).
  assert (N0 := l1norm_nonneg u0). assert (N1 := l1norm_nonneg u1).
  assert (X0 : forall s t, - (l1norm u0 * r) <= get1 u0 t * (r - 1) + ind (b =? a)%nat * get1 u0 s /\
                           get1 u0 t * (r - 1) + ind (b =? a)%nat * get1 u0 s <= l1norm u0 * r).
  { intros s t. destruct (l1norm_get u0 t) as [T1 T2]. destruct (l1norm_get u0 s) as [S1 S2].
    destruct (scale_le (get1 u0 t) (l1norm u0) (r - 1) R0 T1 T2) as [V1 V2].
    replace (l1norm u0 * r) with (l1norm u0 * (r - 1) + l1norm u0) by ring.
    revert V1 V2. generalize (l1norm u0 * (r - 1)). generalize (get1 u0 t * (r - 1)). intros q q'. intros V1 V2.
    unfold ind. destruct (b =? a)%nat; rewrite ?Qcmult_1_l, ?Qcmult_0_l; clear - V1 V2 S1 S2 N0; split; qclra. }
  assert (X1 : forall s t, - (l1norm u1 * r) <= get1 u1 s * (r - 1) + ind (a =? b)%nat * get1 u1 t /\
                           get1 u1 s * (r - 1) + ind (a =? b)%nat * get1 u1 t <= l1norm u1 * r).
  { intros s t. destruct (l1norm_get u1 t) as [T1 T2]. destruct (l1norm_get u1 s) as [S1 S2].
    destruct (scale_le (get1 u1 s) (l1norm u1) (r - 1) R0 S1 S2) as [V1 V2].
    replace (l1norm u1 * r) with (l1norm u1 * (r - 1) + l1norm u1) by ring.
    revert V1 V2. generalize (l1norm u1 * (r - 1)). generalize (get1 u1 s * (r - 1)). intros q q'. intros V1 V2.
    unfold ind. destruct (a =? b)%nat; rewrite ?Qcmult_1_l, ?Qcmult_0_l; clear - V1 V2 T1 T2 N1; split; qclra. }
  assert (Y0 : 0 <= l1norm u0 * r). { replace 0 with (0 * r) by ring. apply Qcmult_le_compat_r; [exact N0|clear - Hr1; qclra]. }
  assert (Y1 : 0 <= l1norm u1 * r). { replace 0 with (0 * r) by ring. apply Qcmult_le_compat_r; [exact N1|clear - Hr1; qclra]. }
  assert (O : forall s t, (s < k)%nat -> (t < k)%nat ->
    loopy_belief edges (mget U) (lp_fwd st') (lp_bwd st') a s - get1 (lp_bwd st' e) s + P e s t =
    (get1 (lp_in st a) s + get2 (nth e pws []) s t + mget U a s - get1 (lp_bwd st e) s) + ind (b =? a)%nat * get1 u0 s).
  { intros s t Hs Ht. rewrite belief_in by assumption. rewrite (es_in _ _ _ _ _ _ _ _ _ _ _ _ _ S a s Hs), (es_bwd _ _ _ _ _ _ _ _ _ _ _ _ _ S s Hs).
    rewrite Nat.eqb_refl. unfold ind at 2. unfold P. ring. }
  assert (B : forall s t, (s < k)%nat -> (t < k)%nat ->
    loopy_belief edges (mget U) (lp_fwd st') (lp_bwd st') b t - get1 (lp_fwd st' e) t + P e s t =
    (get1 (lp_in st b) t + get2 (nth e pws []) s t + mget U b t - get1 (lp_fwd st e) t) + ind (a =? b)%nat * get1 u1 t).
  { intros s t Hs Ht. rewrite belief_in by assumption. rewrite (es_in _ _ _ _ _ _ _ _ _ _ _ _ _ S b t Ht), (es_fwd _ _ _ _ _ _ _ _ _ _ _ _ _ S t Ht).
    rewrite Nat.eqb_refl. unfold ind at 1. unfold P. ring. }
  exists x0, x1. split; [|split; [|split]].
  - intros s t Hs Ht. fold a. rewrite (O s t Hs Ht). assert (M := es_up0 _ _ _ _ _ _ _ _ _ _ _ _ _ S s t Hs Ht).
    rewrite (es_fwd _ _ _ _ _ _ _ _ _ _ _ _ _ S t Ht). destruct (X0 s t) as [V1 V2].
    replace (get1 u0 t * r) with (get1 u0 t * (r - 1) + get1 u0 t) in M by ring.
    replace ((l1norm u0 + l1norm u1) * r) with (l1norm u0 * r + l1norm u1 * r) by ring.
    revert M V1 V2 Y0 Y1. generalize (l1norm u0 * r), (l1norm u1 * r), (get1 u0 t * (r - 1)), (ind (b =? a)%nat * get1 u0 s).
    clear. intros. qclra.
  - intros t Ht. destruct (es_at0 _ _ _ _ _ _ _ _ _ _ _ _ _ S t Ht) as [s [Hs M]]. exists s. split; [exact Hs|]. fold a. rewrite (O s t Hs Ht).
    rewrite (es_fwd _ _ _ _ _ _ _ _ _ _ _ _ _ S t Ht). destruct (X0 s t) as [V1 V2].
    replace (get1 u0 t * r) with (get1 u0 t * (r - 1) + get1 u0 t) in M by ring.
    replace ((l1norm u0 + l1norm u1) * r) with (l1norm u0 * r + l1norm u1 * r) by ring.
    revert M V1 V2 Y0 Y1. generalize (l1norm u0 * r), (l1norm u1 * r), (get1 u0 t * (r - 1)), (ind (b =? a)%nat * get1 u0 s).
    clear. intros. qclra.
  - intros s t Hs Ht. fold b. rewrite (B s t Hs Ht). assert (M := es_up1 _ _ _ _ _ _ _ _ _ _ _ _ _ S s t Hs Ht).
    rewrite (es_bwd _ _ _ _ _ _ _ _ _ _ _ _ _ S s Hs). destruct (X1 s t) as [V1 V2].
    replace (get1 u1 s * r) with (get1 u1 s * (r - 1) + get1 u1 s) in M by ring.
    replace ((l1norm u0 + l1norm u1) * r) with (l1norm u0 * r + l1norm u1 * r) by ring.
    revert M V1 V2 Y0 Y1. generalize (l1norm u0 * r), (l1norm u1 * r), (get1 u1 s * (r - 1)), (ind (a =? b)%nat * get1 u1 t).
    clear. intros. qclra.
  - intros s Hs. destruct (es_at1 _ _ _ _ _ _ _ _ _ _ _ _ _ S s Hs) as [t [Ht M]]. exists t. split; [exact Ht|]. fold b. rewrite (B s t Hs Ht).
    rewrite (es_bwd _ _ _ _ _ _ _ _ _ _ _ _ _ S s Hs). destruct (X1 s t) as [V1 V2].
    replace (get1 u1 s * r) with (get1 u1 s * (r - 1) + get1 u1 s) in M by ring.
    replace ((l1norm u0 + l1norm u1) * r) with (l1norm u0 * r + l1norm u1 * r) by ring.
    revert M V1 V2 Y0 Y1. generalize (l1norm u0 * r), (l1norm u1 * r), (get1 u1 s * (r - 1)), (ind (a =? b)%nat * get1 u1 t).
    clear. intros. qclra.
Qed.

(** The edges that were processed before. *)
Lemma settled_other e i st st' u0 u1 x0 x1 d pw : loopy_inv k edges st -> loopy_inv k edges st' -> i <> e ->
  edge_step k U r e (fst (nth e edges (0, 0)%nat)) (snd (nth e edges (0, 0)%nat)) pw st st' u0 u1 x0 x1 ->
  settled k edges (mget U) P (lp_fwd st) (lp_bwd st) d i ->
  settled k edges (mget U) P (lp_fwd st') (lp_bwd st') (d + (l1norm u0 + l1norm u1)) i.
Proof.
  intros I I' Ni S [c0 [c1 [A1 [A2 [B1 B2]]]]].
  assert (N0 := l1norm_nonneg u0). assert (N1 := l1norm_nonneg u1).
  assert (Q : forall v s, (s < k)%nat ->
    loopy_belief edges (mget U) (lp_fwd st') (lp_bwd st') v s <= loopy_belief edges (mget U) (lp_fwd st) (lp_bwd st) v s + (l1norm u0 + l1norm u1) /\
    loopy_belief edges (mget U) (lp_fwd st) (lp_bwd st) v s - (l1norm u0 + l1norm u1) <= loopy_belief edges (mget U) (lp_fwd st') (lp_bwd st') v s).
  { intros v s Hs. rewrite !belief_in by assumption. rewrite (es_in _ _ _ _ _ _ _ _ _ _ _ _ _ S v s Hs).
    destruct (l1norm_get u0 s) as [T1 T2]. destruct (l1norm_get u1 s) as [S1 S2].
    unfold ind. destruct (Nat.eqb (snd (nth e edges (0, 0)%nat)) v); destruct (Nat.eqb (fst (nth e edges (0, 0)%nat)) v);
      rewrite ?Qcmult_1_l, ?Qcmult_0_l; clear - N0 N1 T1 T2 S1 S2; split; qclra. }
  exists c0, c1. rewrite (es_fwd_other _ _ _ _ _ _ _ _ _ _ _ _ _ S i Ni), (es_bwd_other _ _ _ _ _ _ _ _ _ _ _ _ _ S i Ni).
  split; [|split; [|split]].
  - intros s t Hs Ht. specialize (A1 s t Hs Ht). destruct (Q (fst (nth i edges (0, 0)%nat)) s Hs) as [Q1 Q2]. clear - A1 Q1. qclra.
  - intros t Ht. destruct (A2 t Ht) as [s [Hs L]]. exists s. split; [exact Hs|]. destruct (Q (fst (nth i edges (0, 0)%nat)) s Hs) as [Q1 Q2]. clear - L Q2. qclra.
  - intros s t Hs Ht. specialize (B1 s t Hs Ht). destruct (Q (snd (nth i edges (0, 0)%nat)) t Ht) as [Q1 Q2]. clear - B1 Q1. qclra.
  - intros s Hs. destruct (B2 s Hs) as [t [Ht L]]. exists t. split; [exact Ht|]. destruct (Q (snd (nth i edges (0, 0)%nat)) t Ht) as [Q1 Q2]. clear - L Q2. qclra.
Qed.

(** ** a whole sweep *)
Lemma sweep_settled : forall es ps e st,
  edges = firstn e edges ++ es -> length (firstn e edges) = e -> pws = firstn e pws ++ ps -> length (firstn e pws) = e ->
  length ps = length es -> loopy_inv k edges st -> 0 <= lp_diff st ->
  (forall i, (i < e)%nat -> settled k edges (mget U) P (lp_fwd st) (lp_bwd st) (lp_diff st * r) i) ->
  exists st', loopy_edges k U damping e es ps st = Ok st' /\ loopy_inv k edges st' /\ lp_diff st <= lp_diff st' /\
    forall i, (i < e + length es)%nat -> settled k edges (mget U) P (lp_fwd st') (lp_bwd st') (lp_diff st' * r) i.
Proof.
  induction es as [|[a b] es IH]; intros [|pw ps] e st E L E' L' Lp I D0 HS; simpl in Lp; try lia.
  - exists st. simpl. rewrite Nat.add_0_r. repeat split; auto using Qcle_refl; apply I.
  - assert (En : nth e edges (0, 0)%nat = (a, b)). { rewrite E, app_nth2 by lia. rewrite L, Nat.sub_diag. reflexivity. }
    assert (Ep : nth e pws [] = pw). { rewrite E', app_nth2 by lia. rewrite L', Nat.sub_diag. reflexivity. }
    assert (He : (e < length edges)%nat) by (rewrite E, app_length; simpl; lia).
    destruct (loopy_edge_steps k U damping r e edges pw st Hk He I Hr) as [st1 [u0 [u1 [x0 [x1 [E1 [I1 S1]]]]]]].
    simpl loopy_edges. assert (E2 := E1). rewrite En in E2. cbn [fst snd] in E2. rewrite E2. cbn [bind].
    assert (N0 := l1norm_nonneg u0). assert (N1 := l1norm_nonneg u1).
    assert (D1 : lp_diff st <= lp_diff st1). { rewrite (es_diff _ _ _ _ _ _ _ _ _ _ _ _ _ S1). clear - N0 N1. qclra. }
    assert (HN : forall i, (i < S e)%nat -> settled k edges (mget U) P (lp_fwd st1) (lp_bwd st1) (lp_diff st1 * r) i).
    { intros i Hi. assert (NR : (l1norm u0 + l1norm u1) <= (l1norm u0 + l1norm u1) * r).
      { replace (l1norm u0 + l1norm u1) with ((l1norm u0 + l1norm u1) * 1) at 1 by ring. rewrite !(Qcmult_comm (l1norm u0 + l1norm u1)).
        apply Qcmult_le_compat_r; [exact Hr1|clear - N0 N1; qclra]. }
      assert (DR : 0 <= lp_diff st * r). { replace 0 with (0 * r) by ring. apply Qcmult_le_compat_r; [exact D0|clear - Hr1; qclra]. }
      assert (EQ : lp_diff st1 * r = lp_diff st * r + (l1norm u0 + l1norm u1) * r). { rewrite (es_diff _ _ _ _ _ _ _ _ _ _ _ _ _ S1). ring. }
      rewrite EQ. destruct (Nat.eq_dec i e) as [->|Ne].
      - apply settled_mono with ((l1norm u0 + l1norm u1) * r); [revert DR; generalize (lp_diff st * r), ((l1norm u0 + l1norm u1) * r); clear; intros; qclra|].
        rewrite <- Ep in S1. exact (settled_here e st st1 u0 u1 x0 x1 I1 S1).
      - apply settled_mono with (lp_diff st * r + (l1norm u0 + l1norm u1)).
        + revert NR. generalize (lp_diff st * r), ((l1norm u0 + l1norm u1) * r). clear. intros. qclra.
        + apply (settled_other e i st st1 u0 u1 x0 x1 _ pw I I1 Ne S1). apply HS. lia. }
    assert (EF : firstn (S e) edges = firstn e edges ++ [(a, b)]).
    { transitivity (firstn (S e) (firstn e edges ++ (a, b) :: es)); [f_equal; exact E|].
      assert (Q := firstn_app_S (firstn e edges) (a, b) es). rewrite L in Q. exact Q. }
    assert (EP : firstn (S e) pws = firstn e pws ++ [pw]).
    { transitivity (firstn (S e) (firstn e pws ++ pw :: ps)); [f_equal; exact E'|].
      assert (Q := firstn_app_S (firstn e pws) pw ps). rewrite L' in Q. exact Q. }
    destruct (IH ps (S e) st1) as [st' [F1 [F2 [F3 F4]]]]; auto.
    + rewrite EF, <- app_assoc. exact E.
    + rewrite EF, app_length, L. simpl. lia.
    + rewrite EP, <- app_assoc. exact E'.
    + rewrite EP, app_length, L'. simpl. lia.
    + clear - D0 D1. qclra.
    + exists st'. split; [exact F1|]. split; [exact F2|]. split; [clear - D1 F3; qclra|].
      intros i Hi. apply F4. simpl in Hi. lia.
Qed.

Lemma iter_settled tol : length pws = length edges -> forall m st, loopy_inv k edges st ->
  exists st', loopy_iter (S m) k U damping tol edges pws st = Ok st' /\ loopy_inv k edges st' /\ 0 <= lp_diff st' /\
    (forall e, (e < length edges)%nat -> settled k edges (mget U) P (lp_fwd st') (lp_bwd st') (lp_diff st' * r) e).
Proof.
  intro HL. induction m as [|m IH]; intros st I.
  - simpl loopy_iter. destruct (sweep_settled edges pws 0 (Loopy (lp_fwd st) (lp_bwd st) (lp_in st) 0)) as [st' [E [I' [D S]]]]; auto using Qcle_refl.
    { apply loopy_inv_diff, I. } { intros i Hi. lia. }
    rewrite E. cbn [bind]. exists st'. destruct (Qcltb (lp_diff st') tol); auto.
  - remember (S m) as m'. simpl loopy_iter. subst m'.
    destruct (sweep_settled edges pws 0 (Loopy (lp_fwd st) (lp_bwd st) (lp_in st) 0)) as [st' [E [I' [D S]]]]; auto using Qcle_refl.
    { apply loopy_inv_diff, I. } { intros i Hi. lia. }
    rewrite E. cbn [bind]. destruct (Qcltb (lp_diff st') tol); [exists st'; auto|]. apply IH. exact I'.
Qed.
End Sweep.

(** ** the algorithm *)
Lemma inverse_ok (d : Qc) : 0 <= d -> d < 1 -> (1 - d) * / (1 - d) = 1 /\ 1 <= / (1 - d).
Proof.
  intros H0 H1. assert (N : 1 - d <> 0). { intro X. assert (0 < 1 - d) by (clear - H1; qclra). rewrite X in H. exact (Qclt_not_eq _ _ H eq_refl). }
  assert (E : (1 - d) * / (1 - d) = 1) by (apply Qcmult_inv_r; exact N). split; [exact E|].
  destruct (Qclt_le_dec (/ (1 - d)) 1) as [L|L]; [|exact L]. exfalso.
  assert (P : 0 < 1 - d) by (clear - H1; qclra).
  assert (L' := Qcmult_lt_compat_r _ _ (1 - d) P L). rewrite Qcmult_comm, E, Qcmult_1_l in L'. clear - L' H0. qclra.
Qed.

Lemma loopy_settles U pws edges n k m damping tol :
  mrows U = n -> mcols U = k -> (0 < k)%nat -> graph_edges n edges -> length pws = length edges -> 0 <= damping -> damping < 1 ->
  exists st y,
    loopy_iter (S m) k U damping tol edges pws (Loopy (fun _ => vzero k) (fun _ => vzero k) (fun _ => vzero k) 0) = Ok st /\
    iterative_max_product U pws edges (S m) damping tol = Ok y /\ labelling n k y /\ 0 <= lp_diff st /\
    (forall v s, (v < n)%nat -> (s < k)%nat ->
      loopy_belief edges (mget U) (lp_fwd st) (lp_bwd st) v s <= loopy_belief edges (mget U) (lp_fwd st) (lp_bwd st) v (lab y v)) /\
    (forall e, (e < length edges)%nat ->
       settled k edges (mget U) (fun e => get2 (nth e pws [])) (lp_fwd st) (lp_bwd st) (lp_diff st / (1 - damping)) e).
Proof.
  intros Hr Hc Hk Hg HL H0 H1. destruct (inverse_ok damping H0 H1) as [R R1].
  destruct (iter_settled k U pws edges damping (/ (1 - damping)) Hk R R1 tol HL m _ (loopy_init k edges)) as [st [E [I [D SS]]]].
  destruct (iterative_ok U pws edges n k (S m) damping tol Hr Hc Hk Hg) as [st' [y [E' [_ [Ey [Ly M]]]]]].
  assert (st' = st) by congruence. subst st'. exists st, y. unfold Qcdiv. repeat split; auto; apply Ly.
Qed.
