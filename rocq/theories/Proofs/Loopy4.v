(** Line 156 subtracts the maximum of the old message: the messages may grow without bound or
    flip forever. *)
From Verif Require Import Model.MaxProd Spec.LoopySpec Proofs.Arrays Proofs.EnergyProofs Proofs.MaxProdProofs Proofs.Loopy Proofs.Loopy2.

Lemma iter_nil k U damping tol pws : forall m st, exists d, loopy_iter m k U damping tol [] pws st = Ok (Loopy (lp_fwd st) (lp_bwd st) (lp_in st) d).
Proof.
  induction m as [|m IH]; intro st; simpl; [exists (lp_diff st); destruct st; reflexivity|].
  destruct (Qcltb 0 tol); [exists 0; reflexivity|]. destruct (IH (Loopy (lp_fwd st) (lp_bwd st) (lp_in st) 0)) as [d E]. exists d. exact E.
Qed.

(** ** sweeps that keep an invariant *)
Section Induct.
Variables (k : nat) (U : mat) (pws : list (list (list Qc))) (edges : list (nat * nat)) (damping r : Qc).
Hypothesis Hk : (0 < k)%nat.
Hypothesis Hr : (1 - damping) * r = 1.
Hypothesis HL : length pws = length edges.
Variable J : nat -> loopy -> Prop.
Hypothesis step : forall e st st' u0 u1 x0 x1, (e < length edges)%nat -> loopy_inv k edges st -> loopy_inv k edges st' -> J e st ->
  edge_step k U r e (fst (nth e edges (0, 0)%nat)) (snd (nth e edges (0, 0)%nat)) (nth e pws []) st st' u0 u1 x0 x1 -> J (S e) st'.
Lemma sweep_ind : forall es ps e st,
  edges = firstn e edges ++ es -> length (firstn e edges) = e -> pws = firstn e pws ++ ps -> length (firstn e pws) = e ->
  length ps = length es -> loopy_inv k edges st -> J e st ->
  exists st', loopy_edges k U damping e es ps st = Ok st' /\ loopy_inv k edges st' /\ J (e + length es)%nat st'.
Proof.
  induction es as [|[a b] es IH]; intros [|pw ps] e st E L E' L' Lp I HJ; simpl in Lp; try lia.
  - exists st. simpl. rewrite Nat.add_0_r. auto.
  - assert (En : nth e edges (0, 0)%nat = (a, b)). { rewrite E, app_nth2 by lia. rewrite L, Nat.sub_diag. reflexivity. }
    assert (Ep : nth e pws [] = pw). { rewrite E', app_nth2 by lia. rewrite L', Nat.sub_diag. reflexivity. }
    assert (He : (e < length edges)%nat) by (rewrite E, app_length; simpl; lia).
    destruct (loopy_edge_steps k U damping r e edges pw st Hk He I Hr) as [st1 [u0 [u1 [x0 [x1 [E1 [I1 S1]]]]]]].
    simpl loopy_edges. assert (E2 := E1). rewrite En in E2. cbn [fst snd] in E2. rewrite E2. cbn [bind].
    assert (J1 : J (S e) st1). { rewrite <- Ep in S1. exact (step e st st1 u0 u1 x0 x1 He I I1 HJ S1). }
    assert (EF : firstn (S e) edges = firstn e edges ++ [(a, b)]).
    { transitivity (firstn (S e) (firstn e edges ++ (a, b) :: es)); [f_equal; exact E|].
      assert (Q := firstn_app_S (firstn e edges) (a, b) es). rewrite L in Q. exact Q. }
    assert (EP : firstn (S e) pws = firstn e pws ++ [pw]).
    { transitivity (firstn (S e) (firstn e pws ++ pw :: ps)); [f_equal; exact E'|].
      assert (Q := firstn_app_S (firstn e pws) pw ps). rewrite L' in Q. exact Q. }
    destruct (IH ps (S e) st1) as [st' [F1 [F2 F3]]]; auto.
    + rewrite EF, <- app_assoc. exact E.
    + rewrite EF, app_length, L. simpl. lia.
    + rewrite EP, <- app_assoc. exact E'.
    + rewrite EP, app_length, L'. simpl. lia.
    + exists st'. split; [exact F1|]. split; [exact F2|]. simpl length. rewrite Nat.add_succ_r. exact F3.
Qed.
End Induct.

(** ** growth: every node has two outgoing edges *)
Section Growth.
Variables (U : mat) (pws : list (list (list Qc))) (edges : list (nat * nat)) (damping r : Qc).
Hypothesis Hr : (1 - damping) * r = 1.
Hypothesis Hd1 : 1 <= damping + damping.
Hypothesis Hd2 : damping < 1.
Hypothesis HL : length pws = length edges.
Hypothesis HU : forall e, (e < length edges)%nat -> 1 <= mget U (snd (nth e edges (0, 0)%nat)) 0 + get2 (nth e pws []) 0 0.
Hypothesis Hout : forall e, (e < length edges)%nat -> exists i j, i <> j /\ (i < length edges)%nat /\ (j < length edges)%nat /\
  fst (nth i edges (0, 0)%nat) = snd (nth e edges (0, 0)%nat) /\ fst (nth j edges (0, 0)%nat) = snd (nth e edges (0, 0)%nat).
Local Notation bw st e := (get1 (lp_bwd st e) 0).

Definition grow_inv (st0 : loopy) (m : Qc) (e : nat) (st : loopy) : Prop :=
  (forall i, get1 (lp_fwd st i) 0 = 0) /\
  (forall i, (i < length edges)%nat -> m <= bw st i) /\ (forall i, (i < e)%nat -> m + (1 - damping) <= bw st i) /\
  (forall i, (i < length edges)%nat -> bw st i - bw st0 i <= lp_diff st) /\ 0 <= lp_diff st.

Lemma in_two st m v : (forall i, get1 (lp_fwd st i) 0 = 0) -> (forall i, (i < length edges)%nat -> m <= bw st i) -> 0 <= m ->
  loopy_inv 1 edges st -> (exists i j, i <> j /\ (i < length edges)%nat /\ (j < length edges)%nat /\ fst (nth i edges (0, 0)%nat) = v /\ fst (nth j edges (0, 0)%nat) = v) ->
  m + m <= get1 (lp_in st v) 0.
Proof.
  intros F B M I [i [j [Nij [Hi [Hj [Ei Ej]]]]]]. rewrite (lv_sum _ _ _ I v 0%nat) by lia. unfold edge_terms.
  assert (E : m + m = sumn (length edges) (fun e => ind (e =? i)%nat * m + ind (e =? j)%nat * m)).
  { rewrite sumn_plus. rewrite (sumn_pick (length edges) i (fun _ => m)) by exact Hi. rewrite (sumn_pick (length edges) j (fun _ => m)) by exact Hj. reflexivity. }
  rewrite E. apply sumn_le. intros e He. rewrite F. specialize (B e He).
  destruct (Nat.eqb_spec e i) as [->|Ni].
  - destruct (Nat.eqb_spec i j) as [Q|_]; [contradiction|]. rewrite Ei, Nat.eqb_refl. unfold ind. rewrite ?Qcmult_1_l, ?Qcmult_0_l, ?Qcmult_0_r. clear - B. qclra.
  - destruct (Nat.eqb_spec e j) as [->|Nj].
    + rewrite Ej, Nat.eqb_refl. unfold ind. rewrite ?Qcmult_1_l, ?Qcmult_0_l, ?Qcmult_0_r. clear - B. qclra.
    + unfold ind. destruct (Nat.eqb (fst (nth e edges (0, 0)%nat)) v); rewrite ?Qcmult_1_l, ?Qcmult_0_l, ?Qcmult_0_r; clear - B M; qclra.
Qed.

Lemma grow_step st0 m : 0 <= m -> forall e st st' u0 u1 x0 x1, (e < length edges)%nat -> loopy_inv 1 edges st -> loopy_inv 1 edges st' ->
  grow_inv st0 m e st ->
  edge_step 1 U r e (fst (nth e edges (0, 0)%nat)) (snd (nth e edges (0, 0)%nat)) (nth e pws []) st st' u0 u1 x0 x1 -> grow_inv st0 m (S e) st'.
Proof.
  intros M e st st' u0 u1 x0 x1 He I I' [F [B [B' [DD D0]]]] S.
  assert (IN := in_two st m _ F B M I (Hout e He)). assert (HUe := HU e He).
  destruct S as [S1 S2 S3 S4 S5 S6 S7 S8 S9 S10 S11 S12 S13].
  assert (Hd : 0 <= 1 - damping) by (clear - Hd2; qclra).
  assert (Z0 : get1 u0 0 = 0).
  { destruct S11 as [t [Ht Et]]. replace t with 0%nat in Et by lia. rewrite F in Et.
    replace (get1 u0 0) with ((1 - damping) * r * get1 u0 0) by (rewrite Hr; ring).
    replace ((1 - damping) * r * get1 u0 0) with ((1 - damping) * (0 + get1 u0 0 * r)) by ring. rewrite Et. ring. }
  assert (X1 : x1 = bw st e).
  { destruct (np_max_spec _ _ S12) as [T _]. apply (In_nth _ _ 0) in T. destruct T as [t [Ht Et]]. rewrite (lv_bwd _ _ _ I) in Ht.
    replace t with 0%nat in Et by lia. symmetry. exact Et. }
  assert (Hnew : m + (1 - damping) <= bw st' e).
  { destruct (S10 0%nat) as [t [Ht Et]]; [lia|]. replace t with 0%nat in Et by lia. rewrite F, X1 in Et.
    rewrite (S3 0%nat) by lia. specialize (B e He).
    assert (E1 : get1 u1 0 = (1 - damping) * (get1 (lp_in st (snd (nth e edges (0, 0)%nat))) 0 + get2 (nth e pws []) 0 0 + mget U (snd (nth e edges (0, 0)%nat)) 0 - bw st e - bw st e)).
    { replace (get1 u1 0) with ((1 - damping) * r * get1 u1 0) by (rewrite Hr; ring).
      replace ((1 - damping) * r * get1 u1 0) with ((1 - damping) * (get1 u1 0 * r)) by ring. f_equal. clear - Et. qclra. }
    rewrite E1. set (q := get1 (lp_in st (snd (nth e edges (0, 0)%nat))) 0 + get2 (nth e pws []) 0 0 + mget U (snd (nth e edges (0, 0)%nat)) 0) in *.
    assert (Q : 1 + (m + m) <= q) by (unfold q; clear - HUe IN; qclra). clearbody q.
    assert (Q1 : (1 - damping) * (1 + (m + m)) <= (1 - damping) * q) by (rewrite !(Qcmult_comm (1 - damping)); apply Qcmult_le_compat_r; assumption).
    assert (Q2 : (damping + damping - 1) * m <= (damping + damping - 1) * bw st e)
      by (rewrite !(Qcmult_comm (damping + damping - 1)); apply Qcmult_le_compat_r; [exact B|clear - Hd1; qclra]).
    replace (bw st e + (1 - damping) * (q - bw st e - bw st e)) with ((damping + damping - 1) * bw st e + (1 - damping) * q) by ring.
    replace (m + (1 - damping)) with ((damping + damping - 1) * m + (1 - damping) * (1 + (m + m))) by ring.
    apply Qcplus_le_compat; assumption. }
  assert (N0 := l1norm_nonneg u0). assert (N1 := l1norm_nonneg u1).
  repeat split.
  - intro i. destruct (Nat.eq_dec i e) as [->|Ne]; [rewrite (S2 0%nat) by lia; rewrite F, Z0; ring|rewrite (S4 i Ne); apply F].
  - intros i Hi. destruct (Nat.eq_dec i e) as [->|Ne]; [clear - Hnew Hd; qclra|rewrite (S5 i Ne); apply B, Hi].
  - intros i Hi. destruct (Nat.eq_dec i e) as [->|Ne]; [exact Hnew|rewrite (S5 i Ne); apply B'; lia].
  - intros i Hi. rewrite S1. specialize (DD i Hi). destruct (Nat.eq_dec i e) as [->|Ne].
    + rewrite (S3 0%nat) by lia. destruct (l1norm_get u1 0) as [_ V]. clear - DD V N0. qclra.
    + rewrite (S5 i Ne). clear - DD N0 N1. qclra.
  - rewrite S1. clear - D0 N0 N1. qclra.
Qed.

Lemma grow_iter tol : (0 < length edges)%nat -> tol <= 1 - damping -> forall c m st, loopy_inv 1 edges st -> (forall i, get1 (lp_fwd st i) 0 = 0) -> 0 <= m ->
  (forall i, (i < length edges)%nat -> m <= bw st i) ->
  exists st', loopy_iter (S c) 1 U damping tol edges pws st = Ok st' /\ 1 - damping <= lp_diff st' /\
    forall i, (i < length edges)%nat -> m + ofN (S c) * (1 - damping) <= bw st' i.
Proof.
  intros HE Ht. induction c as [|c IH]; intros m st I F M B.
  - destruct (best_one (length edges) (fun i => - bw st i) HE) as [i0 [Hi0 Min]].
    assert (M' : 0 <= bw st i0) by (specialize (B i0 Hi0); clear - B M; qclra).
    set (st1 := Loopy (lp_fwd st) (lp_bwd st) (lp_in st) 0).
    assert (I1 : loopy_inv 1 edges st1) by apply loopy_inv_diff, I.
    destruct (sweep_ind 1 U pws edges damping r ltac:(lia) Hr HL (grow_inv st (bw st i0)) (grow_step st (bw st i0) M') edges pws 0 st1) as [st' [E [I' [F' [B' [B2 [DD D0]]]]]]]; auto.
    { repeat split; auto; simpl.
      - intros i Hi. specialize (Min i Hi). cbv beta in Min. clear - Min. qclra.
      - intros i Hi. lia.
      - intros i Hi. clear. qclra.
      - apply Qcle_refl. }
    assert (DF : 1 - damping <= lp_diff st').
    { specialize (B2 i0 ltac:(lia)). specialize (DD i0 Hi0). clear - B2 DD. qclra. }
    exists st'. simpl loopy_iter. fold st1. rewrite E. cbn [bind]. split; [destruct (Qcltb (lp_diff st') tol); reflexivity|]. split; [exact DF|].
    intros i Hi. specialize (B2 i ltac:(lia)). specialize (B i0 Hi0). replace (ofN 1) with 1 by (symmetry; apply ofN_1). clear - B2 B. rewrite Qcmult_1_l. qclra.
  - destruct (best_one (length edges) (fun i => - bw st i) HE) as [i0 [Hi0 Min]].
    assert (M' : 0 <= bw st i0) by (specialize (B i0 Hi0); clear - B M; qclra).
    set (st1 := Loopy (lp_fwd st) (lp_bwd st) (lp_in st) 0).
    assert (I1 : loopy_inv 1 edges st1) by apply loopy_inv_diff, I.
    destruct (sweep_ind 1 U pws edges damping r ltac:(lia) Hr HL (grow_inv st (bw st i0)) (grow_step st (bw st i0) M') edges pws 0 st1) as [st' [E [I' [F' [B' [B2 [DD D0]]]]]]]; auto.
    { repeat split; auto; simpl.
      - intros i Hi. specialize (Min i Hi). cbv beta in Min. clear - Min. qclra.
      - intros i Hi. lia.
      - intros i Hi. clear. qclra.
      - apply Qcle_refl. }
    assert (DF : 1 - damping <= lp_diff st').
    { specialize (B2 i0 ltac:(lia)). specialize (DD i0 Hi0). clear - B2 DD. qclra. }
    remember (S c) as c'. simpl loopy_iter. fold st1. rewrite E. cbn [bind].
    replace (Qcltb (lp_diff st') tol) with false by (destruct (Qcltb_spec (lp_diff st') tol) as [X|X]; [exfalso; clear - X DF Ht; qclra|reflexivity]).
    subst c'. destruct (IH (m + (1 - damping)) st' I' F') as [st2 [E2 [D2 G2]]].
    { clear - M Hd2. qclra. }
    { intros i Hi. specialize (B2 i ltac:(lia)). specialize (B i0 Hi0). clear - B2 B. qclra. }
    exists st2. split; [exact E2|]. split; [exact D2|]. intros i Hi. specialize (G2 i Hi).
    replace (m + ofN (S (S c)) * (1 - damping)) with (m + (1 - damping) + ofN (S c) * (1 - damping)); [exact G2|]. rewrite (ofN_S (S c)). ring.
Qed.
End Growth.

Lemma messages_grow U pws edges damping tol m : 1 <= damping + damping -> damping < 1 -> tol <= 1 - damping ->
  length pws = length edges -> edges <> [] ->
  (forall e, (e < length edges)%nat -> 1 <= mget U (snd (nth e edges (0, 0)%nat)) 0 + get2 (nth e pws []) 0 0) ->
  (forall e, (e < length edges)%nat -> exists i j, i <> j /\ (i < length edges)%nat /\ (j < length edges)%nat /\
     fst (nth i edges (0, 0)%nat) = snd (nth e edges (0, 0)%nat) /\ fst (nth j edges (0, 0)%nat) = snd (nth e edges (0, 0)%nat)) ->
  exists st, loopy_iter (S m) 1 U damping tol edges pws (Loopy (fun _ => vzero 1) (fun _ => vzero 1) (fun _ => vzero 1) 0) = Ok st /\
    1 - damping <= lp_diff st /\ forall e, (e < length edges)%nat -> ofN (S m) * (1 - damping) <= get1 (lp_bwd st e) 0.
Proof.
  intros H1 H2 H3 HL HN HU HO.
  assert (H0 : 0 <= damping) by (clear - H1; qclra).
  destruct (inverse_ok damping H0 H2) as [R _].
  destruct (grow_iter U pws edges damping (/ (1 - damping)) R H1 H2 HL HU HO tol ltac:(destruct edges; [congruence|simpl; lia]) H3 m 0
    (Loopy (fun _ => vzero 1) (fun _ => vzero 1) (fun _ => vzero 1) 0)) as [st [E [D G]]].
  - apply loopy_init.
  - intro i. reflexivity.
  - apply Qcle_refl.
  - intros i Hi. apply Qcle_refl.
  - exists st. split; [exact E|]. split; [exact D|]. intros e He. specialize (G e He). rewrite Qcplus_0_l in G. exact G.
Qed.

(** ** flipping: no damping and an edge that leads to a leaf *)
Section Flip.
Variables (k : nat) (U : mat) (pws : list (list (list Qc))) (edges : list (nat * nat)) (e0 : nat).
Local Notation a := (fst (nth e0 edges (0, 0)%nat)).
Local Notation b := (snd (nth e0 edges (0, 0)%nat)).
Hypothesis Hk : (0 < k)%nat.
Hypothesis HL : length pws = length edges.
Hypothesis He0 : (e0 < length edges)%nat.
Hypothesis Hab : a <> b.
Hypothesis Hleaf : forall i, (i < length edges)%nat -> i <> e0 -> fst (nth i edges (0, 0)%nat) <> b /\ snd (nth i edges (0, 0)%nat) <> b.
Variables (g : nat -> Qc) (s0 : nat).
Hypothesis Hs0 : (s0 < k)%nat.
Hypothesis Hg1 : forall s t, (s < k)%nat -> (t < k)%nat -> mget U b t + get2 (nth e0 pws []) s t <= g s.
Hypothesis Hg2 : forall s, (s < k)%nat -> exists t, (t < k)%nat /\ g s = mget U b t + get2 (nth e0 pws []) s t.
Hypothesis Hg0 : forall s, (s < k)%nat -> g s <= g s0.

Definition flip_kind (st : loopy) : Prop :=
  (forall s, (s < k)%nat -> get1 (lp_bwd st e0) s = 0) \/
  exists c, (c = 0 \/ c = g s0) /\ forall s, (s < k)%nat -> get1 (lp_bwd st e0) s = g s - c.
Definition flip_inv (e : nat) (st : loopy) : Prop := flip_kind st /\ 0 <= lp_diff st /\ ((e0 < e)%nat -> Qcabs (g s0) <= lp_diff st).

Lemma leaf_in st t : loopy_inv k edges st -> (t < k)%nat -> get1 (lp_in st b) t = get1 (lp_fwd st e0) t.
Proof.
  intros I Ht. rewrite (lv_sum _ _ _ I) by exact Ht. unfold edge_terms.
  rewrite <- (sumn_pick (length edges) e0 (fun e => get1 (lp_fwd st e) t)) by exact He0. apply sumn_ext. intros i Hi.
  destruct (Nat.eqb_spec i e0) as [->|Ni].
  - rewrite Nat.eqb_refl. apply Nat.eqb_neq in Hab. rewrite Hab. unfold ind. ring.
  - destruct (Hleaf i Hi Ni) as [H1 H2]. apply Nat.eqb_neq in H1. apply Nat.eqb_neq in H2. rewrite H1, H2. unfold ind. ring.
Qed.
Lemma abs_norm u s (M : Qc) : get1 u s = M \/ get1 u s = - M -> Qcabs M <= l1norm u.
Proof.
  destruct (l1norm_get u s) as [V1 V2]. unfold Qcabs. destruct (Qcleb_spec 0 M); intros [E|E]; rewrite E in *; revert V1 V2; generalize (l1norm u); clear; intros; qclra.
Qed.

Lemma flip_step e st st' u0 u1 x0 x1 : (e < length edges)%nat -> loopy_inv k edges st -> loopy_inv k edges st' -> flip_inv e st ->
  edge_step k U 1 e (fst (nth e edges (0, 0)%nat)) (snd (nth e edges (0, 0)%nat)) (nth e pws []) st st' u0 u1 x0 x1 -> flip_inv (S e) st'.
Proof.
  intros He I I' [K [D0 DD]] S.
  assert (N0 := l1norm_nonneg u0). assert (N1 := l1norm_nonneg u1).
  destruct S as [S1 S2 S3 S4 S5 S6 S7 S8 S9 S10 S11 S12 S13].
  destruct (Nat.eq_dec e e0) as [->|Ne].
  - assert (G : forall s, (s < k)%nat -> g s = get1 (lp_bwd st e0) s + x1 + get1 u1 s).
    { intros s Hs. apply Qcle_antisym.
      - destruct (Hg2 s Hs) as [t [Ht Et]]. assert (Q := S9 s t Hs Ht). rewrite (leaf_in st t I Ht) in Q. rewrite Et. rewrite Qcmult_1_r in Q. clear - Q. qclra.
      - destruct (S10 s Hs) as [t [Ht Et]]. rewrite (leaf_in st t I Ht), Qcmult_1_r in Et. assert (Q := Hg1 s t Hs Ht). clear - Q Et. qclra. }
    destruct (np_max_spec _ _ S12) as [T1 T2]. apply (In_nth _ _ 0) in T1. destruct T1 as [t [Ht Et]]. rewrite (lv_bwd _ _ _ I) in Ht.
    change (get1 (lp_bwd st e0) t = x1) in Et.
    assert (T3 : forall s, (s < k)%nat -> get1 (lp_bwd st e0) s <= x1). { intros s Hs. apply T2. unfold get1. apply nth_In. rewrite (lv_bwd _ _ _ I). exact Hs. }
    assert (X : (x1 = 0 \/ x1 = g s0) /\ (get1 u1 s0 = g s0 \/ get1 u1 s0 = - g s0)).
    { assert (Gs := G s0 Hs0). destruct K as [Z|[c [Hc Z]]].
      - rewrite (Z t Ht) in Et. split; [left; congruence|]. rewrite (Z s0 Hs0), <- Et in Gs. left. clear - Gs. qclra.
      - assert (E1 : x1 = g s0 - c).
        { apply Qcle_antisym; [rewrite <- Et, (Z t Ht); specialize (Hg0 t Ht); clear - Hg0; qclra|]. rewrite <- (Z s0 Hs0). apply T3, Hs0. }
        rewrite (Z s0 Hs0) in Gs. destruct Hc as [->| ->].
        + split; [right; rewrite E1; ring|]. right. rewrite E1 in Gs. clear - Gs. qclra.
        + split; [left; rewrite E1; ring|]. left. rewrite E1 in Gs. clear - Gs. qclra. }
    destruct X as [X1 X2]. assert (A := abs_norm u1 s0 (g s0) X2). split; [|split].
    + right. exists x1. split; [exact X1|]. intros s Hs. rewrite (S3 s Hs), (G s Hs). ring.
    + rewrite S1. clear - D0 N0 N1. qclra.
    + intros _. rewrite S1. clear - A D0 N0. qclra.
  - split; [|split].
    + unfold flip_kind. rewrite (S5 e0) by congruence. exact K.
    + rewrite S1. clear - D0 N0 N1. qclra.
    + intro L. rewrite S1. assert (Q := DD ltac:(lia)). clear - Q N0 N1. qclra.
Qed.

Lemma flip_iter tol : forall m st, loopy_inv k edges st -> flip_kind st ->
  exists st', loopy_iter (S m) k U 0 tol edges pws st = Ok st' /\ Qcabs (g s0) <= lp_diff st'.
Proof.
  assert (R : (1 - 0) * 1 = 1) by ring.
  assert (W : forall st, loopy_inv k edges st -> flip_kind st ->
    exists st', loopy_edges k U 0 0 edges pws (Loopy (lp_fwd st) (lp_bwd st) (lp_in st) 0) = Ok st' /\ loopy_inv k edges st' /\ flip_kind st' /\ Qcabs (g s0) <= lp_diff st').
  { intros st I K. destruct (sweep_ind k U pws edges 0 1 Hk R HL flip_inv flip_step edges pws 0 (Loopy (lp_fwd st) (lp_bwd st) (lp_in st) 0)) as [st' [E [I' [K' [_ D']]]]]; auto.
    { apply loopy_inv_diff, I. } { split; [exact K|]. split; [apply Qcle_refl|]. intro L. lia. }
    exists st'. split; [exact E|]. split; [exact I'|]. split; [exact K'|]. apply D'. exact He0. }
  induction m as [|m IH]; intros st I K; destruct (W st I K) as [st' [E [I' [K' D']]]].
  - simpl loopy_iter. rewrite E. cbn [bind]. exists st'. destruct (Qcltb (lp_diff st') tol); auto.
  - remember (S m) as m'. simpl loopy_iter. subst m'. rewrite E. cbn [bind]. destruct (Qcltb (lp_diff st') tol); [exists st'; auto|]. apply IH; assumption.
Qed.
End Flip.

Lemma undamped_flips k U pws edges e0 s0 t0 tol m : (0 < k)%nat -> length pws = length edges -> (e0 < length edges)%nat ->
  fst (nth e0 edges (0, 0)%nat) <> snd (nth e0 edges (0, 0)%nat) ->
  (forall i, (i < length edges)%nat -> i <> e0 -> fst (nth i edges (0, 0)%nat) <> snd (nth e0 edges (0, 0)%nat) /\ snd (nth i edges (0, 0)%nat) <> snd (nth e0 edges (0, 0)%nat)) ->
  (s0 < k)%nat -> (t0 < k)%nat ->
  (forall s t, (s < k)%nat -> (t < k)%nat -> mget U (snd (nth e0 edges (0, 0)%nat)) t + get2 (nth e0 pws []) s t <=
                                           mget U (snd (nth e0 edges (0, 0)%nat)) t0 + get2 (nth e0 pws []) s0 t0) ->
  exists st, loopy_iter (S m) k U 0 tol edges pws (Loopy (fun _ => vzero k) (fun _ => vzero k) (fun _ => vzero k) 0) = Ok st /\
    Qcabs (mget U (snd (nth e0 edges (0, 0)%nat)) t0 + get2 (nth e0 pws []) s0 t0) <= lp_diff st.
Proof.
  intros Hk HL He Hab Hleaf Hs Ht Hm. set (b := snd (nth e0 edges (0, 0)%nat)) in *.
  destruct (max_rows_ok k k (fun s t => mget U b t + get2 (nth e0 pws []) s t) Hk) as [gl [_ [_ M]]].
  assert (E : get1 gl s0 = mget U b t0 + get2 (nth e0 pws []) s0 t0).
  { apply Qcle_antisym.
    - destruct (M s0 Hs) as [_ [t [Ht' Et]]]. rewrite Et. apply Hm; assumption.
    - destruct (M s0 Hs) as [Q _]. apply (Q t0 Ht). }
  rewrite <- E. apply (flip_iter k U pws edges e0 Hk HL He Hab Hleaf (get1 gl) s0 Hs).
  - intros s t Hs' Ht'. apply (proj1 (M s Hs') t Ht').
  - intros s Hs'. destruct (M s Hs') as [_ [t [Ht' Et]]]. exists t. auto.
  - intros s Hs'. destruct (M s Hs') as [_ [t [Ht' Et]]]. rewrite Et, E. apply Hm; assumption.
  - apply loopy_init.
  - left. intros s Hs'. simpl. apply get1_vzero.
Qed.
