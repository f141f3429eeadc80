(** Fourier-Motzkin elimination: a linear function that is bounded above on a nonempty polyhedron attains its maximum.
    Hence every feasible and bounded linear program has an optimum with rational entries. *)
From Verif Require Import Model.LP Spec.LPSpec Proofs.Arrays.

(** a . x <= b *)
Definition ineq : Type := (list Qc * Qc)%type.
Definition holds (c : ineq) (x : list Qc) : Prop := dot (fst c) x <= snd c.
Definition sat (cs : list ineq) (x : list Qc) : Prop := Forall (fun c => holds c x) cs.
Definition sized (n : nat) (cs : list ineq) : Prop := Forall (fun c => length (fst c) = n) cs.

Definition head (c : ineq) : Qc := match fst c with [] => 0 | a :: _ => a end.
Definition rest (c : ineq) : ineq := (tl (fst c), snd c).
(** divided by its first coefficient: bounds the first variable by snd - fst . x *)
Definition bound_of (c : ineq) : ineq := (vscale (/ head c) (tl (fst c)), / head c * snd c).
Definition elim (cs : list ineq) : list ineq :=
  map rest (filter (fun c => Qceqb (head c) 0) cs) ++
  flat_map (fun p => map (fun q => (vsub (fst (bound_of p)) (fst (bound_of q)), snd (bound_of p) - snd (bound_of q)))
                         (filter (fun c => Qcltb (head c) 0) cs))
           (filter (fun c => Qcltb 0 (head c)) cs).

Lemma inv_pos (a : Qc) : 0 < a -> 0 < / a.
Proof.
  intro H. destruct (Qclt_le_dec 0 (/ a)) as [G|G]; [exact G|]. exfalso.
  assert (a * / a = 1) by (apply Qcmult_inv_r; intro E; rewrite E in H; revert H; vm_compute; discriminate).
  assert (a * / a <= a * 0). { rewrite !(Qcmult_comm a). apply Qcmult_le_compat_r; [exact G|]. apply Qclt_le_weak, H. }
  rewrite H0 in H1. revert H1. rewrite Qcmult_0_r. vm_compute. auto.
Qed.
Lemma inv_neg (a : Qc) : a < 0 -> / a < 0.
Proof.
  intro H. assert (N : 0 < - a) by qclra. assert (I := inv_pos _ N).
  assert (E : / - a = - / a). { assert (a <> 0) by (intro Z; rewrite Z in H; revert H; vm_compute; discriminate). field. split; [exact H0|]. intro Z. apply H0. rewrite <- (Qcopp_involutive a), Z. reflexivity. }
  rewrite E in I. qclra.
Qed.
Lemma sub_le (a b : Qc) : 0 <= a - b -> b <= a.
Proof. intro; qclra. Qed.
Lemma le_sub (a b : Qc) : b <= a -> 0 <= a - b.
Proof. intro; qclra. Qed.
Lemma holds_cons c x0 x n : length (fst c) = S n -> dot (fst c) (x0 :: x) = head c * x0 + dot (tl (fst c)) x.
Proof. destruct c as [[|a u] b]; [discriminate|]. intros _. reflexivity. Qed.
Lemma bound_value c x : snd (bound_of c) - dot (fst (bound_of c)) x = / head c * (snd c - dot (tl (fst c)) x).
Proof. unfold bound_of. cbn [fst snd]. rewrite dot_vscale_l. ring. Qed.
Lemma holds_pos c x0 x n : length (fst c) = S n -> 0 < head c ->
  (holds c (x0 :: x) <-> x0 <= snd (bound_of c) - dot (fst (bound_of c)) x).
Proof.
  intros L H. unfold holds. rewrite (holds_cons c x0 x n L), bound_value. assert (I := inv_pos _ H).
  assert (E : head c * / head c = 1). { apply Qcmult_inv_r. intro Z. rewrite Z in H. revert H. vm_compute. discriminate. }
  split; intro G.
  - assert (D : 0 <= / head c * (snd c - (head c * x0 + dot (tl (fst c)) x))).
    { apply Qcmult_nonneg; [apply Qclt_le_weak, I|apply le_sub, G]. }
    replace (/ head c * (snd c - (head c * x0 + dot (tl (fst c)) x))) with
      (/ head c * (snd c - dot (tl (fst c)) x) - (head c * / head c) * x0) in D by ring.
    rewrite E, Qcmult_1_l in D. first [apply sub_le; exact D|revert D; generalize (head c * x0); intros; qclra].
  - assert (D : 0 <= head c * (/ head c * (snd c - dot (tl (fst c)) x) - x0)).
    { apply Qcmult_nonneg; [apply Qclt_le_weak, H|apply le_sub, G]. }
    replace (head c * (/ head c * (snd c - dot (tl (fst c)) x) - x0)) with
      ((head c * / head c) * (snd c - dot (tl (fst c)) x) - head c * x0) in D by ring.
    rewrite E, Qcmult_1_l in D. first [apply sub_le; exact D|revert D; generalize (head c * x0); intros; qclra].
Qed.
Lemma holds_neg c x0 x n : length (fst c) = S n -> head c < 0 ->
  (holds c (x0 :: x) <-> snd (bound_of c) - dot (fst (bound_of c)) x <= x0).
Proof.
  intros L H. unfold holds. rewrite (holds_cons c x0 x n L), bound_value. assert (I := inv_neg _ H).
  assert (E : head c * / head c = 1). { apply Qcmult_inv_r. intro Z. rewrite Z in H. revert H. vm_compute. discriminate. }
  split; intro G.
  - assert (D : 0 <= (- / head c) * (snd c - (head c * x0 + dot (tl (fst c)) x))).
    { apply Qcmult_nonneg; [qclra|apply le_sub, G]. }
    replace ((- / head c) * (snd c - (head c * x0 + dot (tl (fst c)) x))) with
      ((head c * / head c) * x0 - / head c * (snd c - dot (tl (fst c)) x)) in D by ring.
    rewrite E, Qcmult_1_l in D. first [apply sub_le; exact D|revert D; generalize (head c * x0); intros; qclra].
  - assert (D : 0 <= (- head c) * (x0 - / head c * (snd c - dot (tl (fst c)) x))).
    { apply Qcmult_nonneg; [qclra|apply le_sub, G]. }
    replace ((- head c) * (x0 - / head c * (snd c - dot (tl (fst c)) x))) with
      ((head c * / head c) * (snd c - dot (tl (fst c)) x) - head c * x0) in D by ring.
    rewrite E, Qcmult_1_l in D. first [apply sub_le; exact D|revert D; generalize (head c * x0); intros; qclra].
Qed.

(** a number between all lower and all upper bounds *)
Lemma least_upper (us : list Qc) : us = [] \/ exists u, In u us /\ forall v, In v us -> u <= v.
Proof.
  induction us as [|a us IH]; [left; reflexivity|]. right. destruct IH as [->|(u & Hu & M)].
  - exists a. split; [left; reflexivity|]. intros v [<-|[]]. apply Qcle_refl.
  - destruct (Qclt_le_dec a u) as [G|G].
    + exists a. split; [left; reflexivity|]. intros v [<-|Hv]; [apply Qcle_refl|]. eapply Qcle_trans; [apply Qclt_le_weak, G|auto].
    + exists u. split; [right; exact Hu|]. intros v [<-|Hv]; [exact G|auto].
Qed.
Lemma greatest_lower (ls : list Qc) : ls = [] \/ exists l, In l ls /\ forall v, In v ls -> v <= l.
Proof.
  destruct (least_upper (map Qcopp ls)) as [E|(u & Hu & M)].
  - left. destruct ls; [reflexivity|discriminate].
  - right. apply in_map_iff in Hu. destruct Hu as (l & <- & Hl). exists l. split; [exact Hl|]. intros v Hv.
    assert (G := M (- v) (in_map _ _ _ Hv)). qclra.
Qed.
Lemma between (ls us : list Qc) : (forall l u, In l ls -> In u us -> l <= u) ->
  exists t, (forall l, In l ls -> l <= t) /\ forall u, In u us -> t <= u.
Proof.
  intro H. destruct (greatest_lower ls) as [->|(l & Hl & M)].
  - destruct (least_upper us) as [->|(u & Hu & M)]; [exists 0; split; intros ? []|]. exists u. split; [intros ? []|exact M].
  - exists l. split; [exact M|]. intros u Hu. auto.
Qed.

Lemma elim_sized n cs : sized (S n) cs -> sized n (elim cs).
Proof.
  intro H. unfold sized in *. rewrite Forall_forall in H. apply Forall_forall. intros c Hc. unfold elim in Hc.
  assert (TL : forall c, In c cs -> length (tl (fst c)) = n).
  { intros d Hd. specialize (H d Hd). destruct (fst d); [discriminate|]. cbn in *. lia. }
  apply in_app_iff in Hc. destruct Hc as [Hc|Hc].
  - apply in_map_iff in Hc. destruct Hc as (d & <- & Hd). apply filter_In in Hd. apply TL, Hd.
  - apply in_flat_map in Hc. destruct Hc as (p & Hp & Hc). apply in_map_iff in Hc. destruct Hc as (q & <- & Hq).
    apply filter_In in Hp, Hq. cbn [fst bound_of]. unfold vsub, vscale.
    rewrite zipw_length; rewrite !map_length, ?TL; tauto.
Qed.
Lemma elim_sat n cs x : sized (S n) cs -> (sat (elim cs) x <-> exists x0, sat cs (x0 :: x)).
Proof.
  intro H. unfold sized in H. rewrite Forall_forall in H.
  assert (BL : forall c, In c cs -> length (fst (bound_of c)) = n).
  { intros d Hd. specialize (H d Hd). unfold bound_of, vscale. cbn [fst]. rewrite map_length. destruct (fst d); [discriminate|]. cbn in *. lia. }
  split.
  - intro G. unfold sat in G. rewrite Forall_forall in G.
    set (val := fun c : ineq => snd (bound_of c) - dot (fst (bound_of c)) x).
    destruct (between (map val (filter (fun c => Qcltb (head c) 0) cs)) (map val (filter (fun c => Qcltb 0 (head c)) cs))) as (t & T1 & T2).
    { intros l u Hl Hu. apply in_map_iff in Hl, Hu. destruct Hl as (q & <- & Hq). destruct Hu as (p & <- & Hp).
      specialize (G (vsub (fst (bound_of p)) (fst (bound_of q)), snd (bound_of p) - snd (bound_of q))).
      assert (D : holds (vsub (fst (bound_of p)) (fst (bound_of q)), snd (bound_of p) - snd (bound_of q)) x).
      { apply G. unfold elim. apply in_app_iff. right. apply in_flat_map. exists p. split; [exact Hp|]. apply in_map_iff. exists q. auto. }
      apply filter_In in Hp, Hq. unfold holds in D. cbn [fst snd] in D. rewrite dot_vsub_l in D by (rewrite !BL; tauto).
      unfold val. qclra. }
    exists t. apply Forall_forall. intros c Hc. destruct (Qcltb_spec 0 (head c)) as [P|P].
    + apply (holds_pos c t x n (H c Hc) P). apply T2, in_map_iff. exists c. split; [reflexivity|]. apply filter_In.
      split; [exact Hc|]. destruct (Qcltb_spec 0 (head c)); [reflexivity|]. exfalso. qclra.
    + destruct (Qcltb_spec (head c) 0) as [Q|Q].
      * apply (holds_neg c t x n (H c Hc) Q). apply T1, in_map_iff. exists c. split; [reflexivity|]. apply filter_In.
        split; [exact Hc|]. destruct (Qcltb_spec (head c) 0); [reflexivity|]. exfalso. qclra.
      * assert (Z : head c = 0) by (apply Qcle_antisym; assumption).
        unfold holds. rewrite (holds_cons c t x n (H c Hc)), Z.
        assert (D : holds (rest c) x).
        { apply G. unfold elim. apply in_app_iff. left. apply in_map_iff. exists c. split; [reflexivity|]. apply filter_In.
          split; [exact Hc|]. rewrite Z. reflexivity. }
        unfold holds, rest in D. cbn [fst snd] in D. rewrite Qcmult_0_l. qclra.
  - intros (x0 & G). unfold sat in *. rewrite Forall_forall in G. apply Forall_forall. intros c Hc. unfold elim in Hc.
    apply in_app_iff in Hc. destruct Hc as [Hc|Hc].
    + apply in_map_iff in Hc. destruct Hc as (d & <- & Hd). apply filter_In in Hd. destruct Hd as [Hd Z].
      specialize (G d Hd). unfold holds in *. rewrite (holds_cons d x0 x n (H d Hd)) in G.
      destruct (Qceqb_spec (head d) 0) as [E|E]; [|discriminate]. rewrite E, Qcmult_0_l in G. unfold rest. cbn [fst snd]. qclra.
    + apply in_flat_map in Hc. destruct Hc as (p & Hp & Hc). apply in_map_iff in Hc. destruct Hc as (q & <- & Hq).
      apply filter_In in Hp, Hq. destruct Hp as [Hp P], Hq as [Hq Q].
      destruct (Qcltb_spec 0 (head p)) as [P'|]; [|discriminate]. destruct (Qcltb_spec (head q) 0) as [Q'|]; [|discriminate].
      assert (G1 := proj1 (holds_pos p x0 x n (H p Hp) P') (G p Hp)).
      assert (G2 := proj1 (holds_neg q x0 x n (H q Hq) Q') (G q Hq)).
      unfold holds. cbn [fst snd]. rewrite dot_vsub_l by (rewrite !BL; tauto). qclra.
Qed.
(** the projection onto the last variable *)
Fixpoint elim_all (n : nat) (cs : list ineq) : list ineq := match n with 0%nat => cs | S n => elim_all n (elim cs) end.
Lemma elim_all_sized n : forall cs, sized (n + 1) cs -> sized 1 (elim_all n cs).
Proof. induction n as [|n IH]; intros cs H; [exact H|]. apply IH, elim_sized, H. Qed.
Lemma elim_all_sat n : forall cs t, sized (n + 1) cs -> (sat (elim_all n cs) [t] <-> exists x, length x = n /\ sat cs (x ++ [t])).
Proof.
  induction n as [|n IH]; intros cs t H; cbn [elim_all].
  - split; [intro G; exists []; auto|]. intros (x & L & G). destruct x; [exact G|discriminate].
  - rewrite (IH (elim cs) t (elim_sized _ _ H)). split.
    + intros (x & L & G). apply (elim_sat (n + 1) cs _ H) in G. destruct G as (x0 & G). exists (x0 :: x). split; [cbn; lia|exact G].
    + intros (x & L & G). destruct x as [|x0 x]; [discriminate|]. exists x. split; [cbn in L; lia|].
      apply (elim_sat (n + 1) cs _ H). exists x0. exact G.
Qed.
(** one variable *)
Lemma one_variable cs t0 V : sized 1 cs -> sat cs [t0] -> (forall t, sat cs [t] -> t <= V) ->
  exists t, sat cs [t] /\ forall t', sat cs [t'] -> t' <= t.
Proof.
  intros H S0 B. unfold sized in H. rewrite Forall_forall in H.
  set (val := fun c : ineq => snd (bound_of c) - dot (fst (bound_of c)) []).
  destruct (least_upper (map val (filter (fun c => Qcltb 0 (head c)) cs))) as [E|(u & Hu & M)].
  - exfalso. assert (D : sat cs [t0 + Qcmax 0 (V - t0) + 1]).
    { apply Forall_forall. intros c Hc. unfold sat in S0. rewrite Forall_forall in S0. specialize (S0 c Hc).
      destruct (Qcltb_spec 0 (head c)) as [P|P].
      - exfalso. apply map_eq_nil in E. assert (In c []) as []. rewrite <- E. apply filter_In. split; [exact Hc|].
        destruct (Qcltb_spec 0 (head c)); [reflexivity|]. exfalso. qclra.
      - unfold holds in *. rewrite (holds_cons c _ [] 0 (H c Hc)). rewrite (holds_cons c _ [] 0 (H c Hc)) in S0.
        assert (G : 0 <= (- head c) * (Qcmax 0 (V - t0) + 1)).
        { apply Qcmult_nonneg; [qclra|]. unfold Qcmax. destruct (Qcleb_spec 0 (V - t0)); qclra. }
        replace (head c * (t0 + Qcmax 0 (V - t0) + 1)) with (head c * t0 - (- head c) * (Qcmax 0 (V - t0) + 1)) by ring.
        revert G S0. generalize (- head c * (Qcmax 0 (V - t0) + 1)), (head c * t0). clear. intros; qclra. }
    specialize (B _ D). revert B. unfold Qcmax. destruct (Qcleb_spec 0 (V - t0)); intro; qclra.
  - apply in_map_iff in Hu. destruct Hu as (c & <- & Hc). apply filter_In in Hc. destruct Hc as [Hc P].
    destruct (Qcltb_spec 0 (head c)) as [P'|]; [|discriminate].
    assert (UB : forall t, sat cs [t] -> t <= val c).
    { intros t St. unfold sat in St. rewrite Forall_forall in St. apply (holds_pos c t [] 0 (H c Hc) P'), St, Hc. }
    exists (val c). split; [|exact UB]. apply Forall_forall. intros d Hd.
    assert (Sd : holds d [t0]) by (unfold sat in S0; rewrite Forall_forall in S0; auto).
    destruct (Qcltb_spec 0 (head d)) as [Q|Q].
    + apply (holds_pos d _ [] 0 (H d Hd) Q). apply M, in_map_iff. exists d. split; [reflexivity|]. apply filter_In.
      split; [exact Hd|]. destruct (Qcltb_spec 0 (head d)); [reflexivity|]. exfalso. qclra.
    + unfold holds in *. rewrite (holds_cons d _ [] 0 (H d Hd)). rewrite (holds_cons d _ [] 0 (H d Hd)) in Sd.
      assert (G : 0 <= (- head d) * (val c - t0)). { apply Qcmult_nonneg; [qclra|]. specialize (UB t0 S0). qclra. }
      replace (head d * val c) with (head d * t0 - (- head d) * (val c - t0)) by ring.
      revert G Sd. generalize (- head d * (val c - t0)), (head d * t0). clear. intros; qclra.
Qed.
(** a bounded linear function on a nonempty polyhedron has a maximum *)
Lemma maximum_attained n cs (c : list Qc) x0 V : sized n cs -> length c = n -> length x0 = n -> sat cs x0 ->
  (forall x, length x = n -> sat cs x -> dot c x <= V) ->
  exists x, length x = n /\ sat cs x /\ forall x', length x' = n -> sat cs x' -> dot c x' <= dot c x.
Proof.
  intros H Lc L0 S0 B.
  set (cs' := (vscale (- (1)) c ++ [1], 0) :: map (fun d : ineq => (fst d ++ [0], snd d)) cs).
  assert (SZ : sized (n + 1) cs').
  { constructor; [cbn [fst]; unfold vscale; rewrite app_length, map_length, Lc; reflexivity|].
    unfold sized in *. rewrite Forall_forall in *. intros d Hd. apply in_map_iff in Hd. destruct Hd as (d0 & <- & Hd).
    cbn [fst]. rewrite app_length, (H _ Hd). reflexivity. }
  assert (EQ : forall x t, length x = n -> (sat cs' (x ++ [t]) <-> sat cs x /\ t <= dot c x)).
  { intros x t Lx. unfold sat, cs'. rewrite Forall_cons_iff.
    assert (HH : holds (vscale (- (1)) c ++ [1], 0) (x ++ [t]) <-> t <= dot c x).
    { unfold holds. cbn [fst snd]. rewrite dot_app by (unfold vscale; rewrite map_length; congruence).
      rewrite dot_vscale_l, dot_cons, dot_nil_l.
      replace (- (1) * dot c x + (1 * t + 0)) with (t - dot c x) by ring. split; intro; qclra. }
    rewrite HH. split.
    - intros [G1 G2]. split; [|exact G1]. rewrite Forall_forall in *. intros d Hd.
      specialize (G2 (fst d ++ [0], snd d) (in_map (fun d : ineq => (fst d ++ [0], snd d)) _ _ Hd)). unfold holds in *. cbn [fst snd] in G2.
      unfold sized in H. rewrite Forall_forall in H. rewrite dot_app in G2 by (rewrite (H d Hd); congruence).
      rewrite dot_cons, dot_nil_l in G2. replace (dot (fst d) x + (0 * t + 0)) with (dot (fst d) x) in G2 by ring. exact G2.
    - intros [G1 G2]. split; [exact G2|]. rewrite Forall_forall in *. intros d Hd. apply in_map_iff in Hd. destruct Hd as (d0 & <- & Hd).
      specialize (G1 d0 Hd). unfold holds in *. cbn [fst snd]. unfold sized in H. rewrite Forall_forall in H.
      rewrite dot_app by (rewrite (H d0 Hd); congruence). rewrite dot_cons, dot_nil_l.
      replace (dot (fst d0) x + (0 * t + 0)) with (dot (fst d0) x) by ring. exact G1. }
  destruct (one_variable (elim_all n cs') (dot c x0) V (elim_all_sized n cs' SZ)) as (t & St & Mt).
  - apply (elim_all_sat n cs' _ SZ). exists x0. split; [exact L0|]. apply EQ; [exact L0|]. split; [exact S0|apply Qcle_refl].
  - intros t St. apply (elim_all_sat n cs' _ SZ) in St. destruct St as (x & Lx & G). apply EQ in G; [|exact Lx].
    eapply Qcle_trans; [apply G|]. apply B; tauto.
  - apply (elim_all_sat n cs' _ SZ) in St. destruct St as (x & Lx & G). apply EQ in G; [|exact Lx]. destruct G as [G1 G2].
    exists x. split; [exact Lx|]. split; [exact G1|]. intros x' Lx' G'. eapply Qcle_trans; [|exact G2]. apply Mt.
    apply (elim_all_sat n cs' _ SZ). exists x'. split; [exact Lx'|]. apply EQ; [exact Lx'|]. split; [exact G'|apply Qcle_refl].
Qed.

(** ** linear programs in the form of lp_build *)
Definition row_vec (A : list (Qc * nat * nat)) (n r : nat) : list Qc :=
  tab1 n (fun j => lsum (map (fun t => let '(v, i, j') := t in ind (i =? r)%nat * (v * ind (j' =? j)%nat)) A)).
Lemma row_vec_value A n x r : length x = n -> dot (row_vec A n r) x = row_value A x r.
Proof.
  intros L. unfold row_vec. rewrite dot_get by (rewrite tab1_length; congruence). rewrite tab1_length.
  rewrite (sumn_ext n _ (fun j => lsum (map (fun t => let '(v, i, j') := t in ind (i =? r)%nat * (v * ind (j' =? j)%nat)) A) * get1 x j))
    by (intros j Hj; rewrite get1_tab1 by exact Hj; reflexivity).
  unfold row_value. induction A as [|[[v i] j'] A IH].
  - cbn [map]. change (lsum []) with 0. rewrite (sumn_ext n _ (fun _ => 0)) by (intros; ring). apply sumn_zero. reflexivity.
  - cbn [map]. change (lsum (?a :: ?l)) with (a + lsum l). rewrite <- IH.
    assert (E : sumn n (fun j => ind (j =? j')%nat * (ind (i =? r)%nat * (v * get1 x j))) = ind (i =? r)%nat * (v * get1 x j')).
    { destruct (Nat.lt_ge_cases j' n) as [Hj|Hj].
      - apply (sumn_pick n j' (fun j => ind (i =? r)%nat * (v * get1 x j))). exact Hj.
      - unfold get1 at 2. rewrite nth_overflow by lia. rewrite (sumn_ext n _ (fun _ => 0)).
        + rewrite sumn_zero by reflexivity. ring.
        + intros j Hj'. rewrite (proj2 (Nat.eqb_neq j j')) by lia. unfold ind at 1. ring. }
    rewrite <- E. rewrite <- sumn_plus. apply sumn_ext. intros j _. rewrite (Nat.eqb_sym j' j). ring.
Qed.
Lemma dot_pad c x : dot c x = dot (tab1 (length x) (get1 c)) x.
Proof.
  rewrite (dot_get (tab1 (length x) (get1 c))) by apply tab1_length. rewrite tab1_length.
  rewrite (sumn_ext _ _ (fun i => get1 c i * get1 x i)) by (intros i Hi; rewrite get1_tab1 by exact Hi; reflexivity).
  revert x. induction c as [|a c IH]; intros x.
  - rewrite dot_nil_l, sumn_zero; [reflexivity|]. intros i _. unfold get1. rewrite nth_overflow by (cbn; lia). ring.
  - destruct x as [|b x]; [reflexivity|]. rewrite dot_cons, IH. cbn [length]. rewrite sumn_S_l. reflexivity.
Qed.
Lemma lp_attained pb x0 V : feasible pb x0 -> (forall x, feasible pb x -> V <= dot (lp_c pb) x) -> exists x, optimal pb x.
Proof.
  intros F0 B. set (n := lp_vars pb) in *.
  set (cs := map (fun j => (tab1 n (fun i => - ind (i =? j)%nat), 0)) (seq 0 n) ++
             flat_map (fun r => [(row_vec (lp_A pb) n r, get1 (lp_b pb) r); (vscale (- (1)) (row_vec (lp_A pb) n r), - get1 (lp_b pb) r)])
                      (seq 0 (lp_rows pb))).
  assert (SZ : sized n cs).
  { apply Forall_forall. intros c Hc. apply in_app_iff in Hc. destruct Hc as [Hc|Hc].
    - apply in_map_iff in Hc. destruct Hc as (j & <- & _). apply tab1_length.
    - apply in_flat_map in Hc. destruct Hc as (r & _ & [<-|[<-|[]]]); cbn [fst]; unfold vscale, row_vec; rewrite ?map_length; apply tab1_length. }
  assert (EQ : forall x, length x = n -> (sat cs x <-> feasible pb x)).
  { intros x Lx. assert (NEG : forall j, (j < n)%nat -> dot (tab1 n (fun i => - ind (i =? j)%nat)) x = - get1 x j).
    { intros j Hj. rewrite dot_get by (rewrite tab1_length; congruence). rewrite tab1_length.
      rewrite (sumn_ext n _ (fun i => (- (1)) * (ind (i =? j)%nat * get1 x i))) by (intros i Hi; rewrite get1_tab1 by exact Hi; ring).
      rewrite sumn_mult_l, sumn_pick by exact Hj. ring. }
    unfold sat. split.
    - intro G. rewrite Forall_forall in G. split; [exact Lx|]. split.
      + intros j Hj. assert (D : holds (tab1 n (fun i => - ind (i =? j)%nat), 0) x).
        { apply G, in_app_iff. left. apply in_map_iff. exists j. split; [reflexivity|]. apply in_seq. fold n in Hj. lia. }
        unfold holds in D. cbn [fst snd] in D. rewrite NEG in D by exact Hj. qclra.
      + intros r Hr. assert (IN : forall c, In c [(row_vec (lp_A pb) n r, get1 (lp_b pb) r); (vscale (- (1)) (row_vec (lp_A pb) n r), - get1 (lp_b pb) r)] -> holds c x).
        { intros c Hc. apply G, in_app_iff. right. apply in_flat_map. exists r. split; [apply in_seq; lia|exact Hc]. }
        assert (D1 := IN _ (or_introl eq_refl)). assert (D2 := IN _ (or_intror (or_introl eq_refl))).
        unfold holds in D1, D2. cbn [fst snd] in D1, D2. rewrite dot_vscale_l in D2.
        rewrite (row_vec_value _ _ _ _ Lx) in D1, D2.
        replace (- (1) * row_value (lp_A pb) x r) with (- row_value (lp_A pb) x r) in D2 by ring.
        apply Qcle_antisym; qclra.
    - intros (_ & G1 & G2). apply Forall_forall. intros c Hc. apply in_app_iff in Hc. destruct Hc as [Hc|Hc].
      + apply in_map_iff in Hc. destruct Hc as (j & <- & Hj). apply in_seq in Hj. unfold holds. cbn [fst snd].
        assert (Hj' : (j < n)%nat) by lia. rewrite NEG by exact Hj'. specialize (G1 j Hj'). qclra.
      + apply in_flat_map in Hc. destruct Hc as (r & Hr & Hc). apply in_seq in Hr. assert (E := G2 r ltac:(lia)).
        destruct Hc as [<-|[<-|[]]]; unfold holds; cbn [fst snd]; rewrite ?dot_vscale_l, (row_vec_value _ _ _ _ Lx), E; [apply Qcle_refl|].
        replace (- (1) * get1 (lp_b pb) r) with (- get1 (lp_b pb) r) by ring. apply Qcle_refl. }
  assert (NEGC : forall x, length x = n -> dot (vscale (- (1)) (tab1 n (get1 (lp_c pb)))) x = - dot (lp_c pb) x).
  { intros x Lx. rewrite dot_vscale_l, (dot_pad (lp_c pb) x), Lx. ring. }
  destruct (maximum_attained n cs (vscale (- (1)) (tab1 n (get1 (lp_c pb)))) x0 (- V) SZ) as (x & Lx & Sx & Mx).
  - unfold vscale. rewrite map_length. apply tab1_length.
  - apply F0.
  - apply EQ; [apply F0|exact F0].
  - intros x Lx Sx. rewrite NEGC by exact Lx. apply EQ in Sx; [|exact Lx]. specialize (B x Sx). qclra.
  - exists x. split; [apply EQ; assumption|]. intros x' Fx'. assert (L' : length x' = n) by apply Fx'.
    assert (G := Mx x' L' (proj2 (EQ x' L') Fx')). rewrite !NEGC in G by assumption. qclra.
Qed.
