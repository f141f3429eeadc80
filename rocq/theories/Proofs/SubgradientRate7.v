(** ** where training ends elsewhere *)
From Coq Require Import ZArith Permutation.
From Verif Require Import Model.Subgradient Model.BatchInstances Spec.TaskInstances Proofs.Arrays Proofs.LossProofs Proofs.CRFProofs Proofs.LearnerProofs Proofs.QPProofs
  Proofs.NSlackProofs5 Proofs.NSlackExamples Proofs.OneSlackProofs Proofs.OneSlackProofs2 Proofs.OneSlackExamples Proofs.SubgradientProofs Proofs.SubgradientProofs2 Proofs.SubgradientProofs3 Proofs.SubgradientProofs4 Proofs.SubgradientProofs5
  Spec.SubgradientRateSpec Proofs.SubgradientRate6.
From Coq Require Import Lqa.

Ltac qccra := qc_to_q; repeat match goal with H : (?z == ?a # ?b)%Q, H' : context [Qmult ?z _] |- _ => rewrite H in H' end; lra.
Definition ex31_S : list (list Qc * nat) := [([1], 0%nat); ([1], 0%nat); ([1], 1%nat)].
Definition ex31_prm (C t0 : Qc) (k : nat) (jobs : Z) (b : option Z) (br : bool) := SGParams C k 0 None jobs 4 1 t0 b AvgNone br.
Definition ones (S : list (list Qc * nat)) : Prop := Forall (fun p => fst p = [1] /\ (snd p < 2)%nat) S.

Lemma ones_exact S : ones S -> batch_exact ex10_bm ex9_task 2 (map fst S) (map snd S).
Proof.
  intro H. apply (mc_batch_exact ex9_clf).
  - reflexivity.
  - cbn. lia.
  - reflexivity.
  - intros _ [|[|s]] H'; [reflexivity|reflexivity|]. cbn in H'. exfalso. lia.
  - apply Forall_forall. intros x Hx. apply in_map_iff in Hx. destruct Hx as [p [<- Hp]]. destruct (proj1 (Forall_forall _ _) H p Hp) as [-> _]. reflexivity.
  - rewrite !map_length. reflexivity.
  - apply Forall_forall. intros x Hx. apply in_map_iff in Hx. destruct Hx as [p [<- Hp]]. apply (proj1 (Forall_forall _ _) H p Hp).
Qed.
Lemma ones_oracle S : ones S -> oracle_exact (bm_s ex10_bm) ex9_task 2 S.
Proof. intro H. assert (Q := proj1 (proj2 (ones_exact S H))). rewrite split_pairs in Q. exact Q. Qed.
Lemma ones_batches S : ones S -> batches_exact ex10_bm ex9_task 2 S.
Proof.
  intro H. split; [reflexivity|]. intros B HB _. apply ones_exact. apply Forall_forall. intros p Hp. exact (proj1 (Forall_forall _ _) H p (HB p Hp)).
Qed.
Lemma ones_spread S : ones S -> Forall (spread ex9_task (1 + 1)) S.
Proof.
  intro H. apply Forall_forall. intros [x y] Hp. destruct (proj1 (Forall_forall _ _) H _ Hp) as [E L]. cbn [fst snd] in E, L. subst x. intros y' Hy'. cbn [fst snd] in *. cbn in Hy'.
  destruct y as [|[|y]]; [| |lia]; (destruct y' as [|[|y']]; [vm_compute; discriminate|vm_compute; discriminate|exfalso; lia]).
Qed.
Lemma two_weights (w : list Qc) : length w = 2%nat -> exists a b, w = [a; b].
Proof. destruct w as [|a [|b [|c w]]]; try discriminate. eauto. Qed.
Lemma hinge0 a b h : is_hinge ex9_task [a; b] [1] 0%nat h -> 0 <= h /\ 1 - (a - b) <= h.
Proof.
  intros [_ H]. assert (H0 := H 0%nat ltac:(cbn; lia)). assert (H1 := H 1%nat ltac:(cbn; lia)).
  match type of H0 with ?m <= _ => assert (E0 : m = 0) by (unfold margin; cbn; ring) end. match type of H1 with ?m <= _ => assert (E1 : m = 1 - (a - b)) by (unfold margin; cbn; ring) end.
  rewrite E0 in H0. rewrite E1 in H1. auto.
Qed.
Lemma hinge1 a b h : is_hinge ex9_task [a; b] [1] 1%nat h -> 0 <= h /\ 1 + (a - b) <= h.
Proof.
  intros [_ H]. assert (H0 := H 1%nat ltac:(cbn; lia)). assert (H1 := H 0%nat ltac:(cbn; lia)).
  match type of H0 with ?m <= _ => assert (E0 : m = 0) by (unfold margin; cbn; ring) end. match type of H1 with ?m <= _ => assert (E1 : m = 1 + (a - b)) by (unfold margin; cbn; ring) end.
  rewrite E0 in H0. rewrite E1 in H1. auto.
Qed.
Lemma is_hinge0 a b h : 0 <= h -> 1 - (a - b) <= h -> h = 0 \/ h = 1 - (a - b) -> is_hinge ex9_task [a; b] [1] 0%nat h.
Proof.
  intros H0 H1 H. assert (E0 : margin ex9_task [a; b] [1] 0%nat 0%nat = 0) by (unfold margin; cbn; ring). assert (E1 : margin ex9_task [a; b] [1] 0%nat 1%nat = 1 - (a - b)) by (unfold margin; cbn; ring).
  split; [destruct H as [H|H]; subst h; [exists 0%nat|exists 1%nat]; (split; [cbn; lia|]); auto|].
  intros [|[|y]] Hy; [rewrite E0; exact H0|rewrite E1; exact H1|]. cbn in Hy. exfalso. lia.
Qed.
Lemma is_hinge1 a b h : 0 <= h -> 1 + (a - b) <= h -> h = 0 \/ h = 1 + (a - b) -> is_hinge ex9_task [a; b] [1] 1%nat h.
Proof.
  intros H0 H1 H. assert (E0 : margin ex9_task [a; b] [1] 1%nat 1%nat = 0) by (unfold margin; cbn; ring). assert (E1 : margin ex9_task [a; b] [1] 1%nat 0%nat = 1 + (a - b)) by (unfold margin; cbn; ring).
  split; [destruct H as [H|H]; subst h; [exists 1%nat|exists 0%nat]; (split; [cbn; lia|]); auto|].
  intros [|[|y]] Hy; [rewrite E1; exact H1|rewrite E0; exact H0|]. cbn in Hy. exfalso. lia.
Qed.
Lemma sq_small s c : s * s <= c * c -> 0 <= c -> s <= c.
Proof.
  intros H Hc. destruct (Qcleb_spec s c) as [Q|Q]; [exact Q|exfalso]. assert (P : 0 < (s - c) * (s + c)) by (apply Qcmult_pos; qclra). replace ((s - c) * (s + c)) with (s * s - c * c) in P by ring.
  set (x := s * s) in *. set (y := c * c) in *. clearbody x y. qclra.
Qed.
Lemma near_fails {X Y} (T : task X Y) d C S w eps v hv : (forall hs, hinges T w S hs -> primal_value C v hv + eps < primal_value C w hs) -> length v = d -> hinges T v S hv -> ~ near_minimal T d C S w eps.
Proof. intros H Hv Hh [_ [hs [Hhs HN]]]. specialize (HN v hv Hv Hh). specialize (H hs Hhs). exact (Qcle_not_lt _ _ HN H). Qed.

(** *** stopping when an epoch reports no positive slack *)
Lemma maps_this : forall a b : list Qc, map this a = map this b -> a = b.
Proof. induction a as [|x a IH]; intros [|y b] H; try discriminate H; [reflexivity|]. cbn [map] in H. injection H as H1 H2. f_equal; [|apply IH; exact H2]. apply Qc_is_canon. rewrite H1. reflexivity. Qed.
Lemma default_stop k : (2 <= k)%nat -> exists w c,
  sg_fit (ex31_prm (ofN 10) (ofN 10) k 1 None true) ex10_bm (fun _ S => S) false [([1], 0%nat)] sg_new = Ok (SGLearner 2 (Some (w, ofN 10, c))) /\
  ~ near_minimal ex9_task 2 (ofN 10) [([1], 0%nat)] w (Q2Qc (1 # 2)).
Proof.
  intro Hk. destruct k as [|[|k]]; [lia|lia|].
  assert (V : match sg_fit (ex31_prm (ofN 10) (ofN 10) (Datatypes.S (Datatypes.S k)) 1 None true) ex10_bm (fun _ S => S) false [([1], 0%nat)] sg_new with
    | Ok (SGLearner t (Some (w, lr, c))) => (map this w = [10 # 11; -10 # 11]%Q /\ this lr = 10%Q) /\ t = 2%nat | _ => False end) by (vm_compute; auto).
  destruct (sg_fit _ _ _ _ _ _) as [[t [[[w lr] c]|]]|]; [|contradiction|contradiction]. destruct V as [[V1 V2] ->].
  assert (lr = ofN 10) by (apply Qc_is_canon; rewrite V2; vm_compute; reflexivity). subst lr.
  assert (W : w = [Q2Qc (10 # 11); Q2Qc (-10 # 11)]) by (apply maps_this; rewrite V1; vm_compute; reflexivity).
  exists w, c. split; [reflexivity|]. apply near_fails with (v := [Q2Qc (1 # 2); Q2Qc (-1 # 2)]) (hv := [0]); [|reflexivity|].
  - intros hs H. inversion H as [|p h S hs' H1 H2]; subst p S hs. inversion H2; subst hs'. cbn [fst snd] in H1. rewrite W in H1. apply hinge0 in H1. destruct H1 as [H1 _].
    unfold primal_value. rewrite W. cbn [lsum]. apply Qclt_le_trans with (Q2Qc (4 # 5)); [vm_compute; reflexivity|].
    assert (Q : Q2Qc (4 # 5) <= normsq [Q2Qc (10 # 11); Q2Qc (-10 # 11)] / (1 + 1)) by (vm_compute; discriminate). assert (Q2 : 0 <= ofN 10 * (h + 0)) by (apply Qcmult_nonneg; [discriminate|clear - H1; qclra]).
    set (x := normsq _ / _) in *. set (y := ofN 10 * (h + 0)) in *. clearbody x y. clear - Q Q2. qclra.
  - constructor; [|constructor]. apply is_hinge0; [discriminate|vm_compute; discriminate|left; reflexivity].
Qed.

(** *** n_jobs <> 1 *)
Lemma ex12_ones : ones ex12_S.
Proof. repeat constructor. Qed.
Lemma ex31_ones : ones ex31_S.
Proof. repeat constructor. Qed.
Lemma parallel_elsewhere (eps := Q2Qc (1 # 1024)) w : near_minimal ex9_task 2 (Q2Qc (1 # 4)) ex12_S w eps -> ~ near_minimal ex9_task 2 (Q2Qc (1 # 8)) ex12_S w (Q2Qc (1 # 64)).
Proof.
  intros [HL [hs [Hh HN]]]. destruct (two_weights w HL) as [a [b ->]]. specialize (HN [Q2Qc (1 # 2); Q2Qc (-1 # 2)] [0; 0] eq_refl).
  assert (NH : forall v, hinges ex9_task v ex12_S [0; 0] <-> is_hinge ex9_task v [1] 0%nat 0).
  { intro v. split; [intro H; inversion H; auto|]. intro H. constructor; [exact H|constructor; [exact H|constructor]]. }
  specialize (HN (proj2 (NH _) (is_hinge0 (Q2Qc (1 # 2)) (Q2Qc (-1 # 2)) 0 (Qcle_refl 0) ltac:(vm_compute; discriminate) (or_introl eq_refl)))).
  assert (PV : primal_value (Q2Qc (1 # 4)) [Q2Qc (1 # 2); Q2Qc (-1 # 2)] [0; 0] + eps = Q2Qc (1 # 4) + eps) by (apply Qc_is_canon; vm_compute; reflexivity). rewrite PV in HN. clear PV.
  apply near_fails with (v := ex12_w) (hv := [Q2Qc (1 # 2); Q2Qc (1 # 2)]); [|reflexivity|].
  2:{ assert (Q : is_hinge ex9_task ex12_w [1] 0%nat (Q2Qc (1 # 2))) by (apply is_hinge0; [discriminate|vm_compute; discriminate|right; apply Qc_is_canon; vm_compute; reflexivity]). constructor; [exact Q|constructor; [exact Q|constructor]]. }
  inversion Hh as [|p1 h1 S1 hs1 H1 H2]; subst p1 S1 hs. inversion H2 as [|p2 h2 S2 hs2 H3 H4]; subst p2 S2 hs1. inversion H4; subst hs2. cbn [fst snd] in H1, H3. apply hinge0 in H1, H3. destruct H1 as [_ Q1], H3 as [_ Q2].
  intros hs Hh'. inversion Hh' as [|p1 g1 S1 hs1 H1 H5]; subst p1 S1 hs. inversion H5 as [|p2 g2 S2 hs2 H3 H6]; subst p2 S2 hs1. inversion H6; subst hs2. cbn [fst snd] in H1, H3. apply hinge0 in H1, H3. destruct H1 as [P1 _], H3 as [P2 _].
  assert (PV : primal_value (Q2Qc (1 # 8)) ex12_w [Q2Qc (1 # 2); Q2Qc (1 # 2)] + Q2Qc (1 # 64) = Q2Qc (13 # 64)) by (apply Qc_is_canon; vm_compute; reflexivity). rewrite PV. clear PV.
  unfold primal_value in *. cbn [lsum] in *. change (normsq [a; b]) with (a * a + (b * b + 0)) in *. clear H2 H4 H5 H6 Hh Hh' NH HL.
  set (q := (a * a + (b * b + 0)) / (1 + 1)) in *. set (s := a - b) in *.
  assert (QS : s * s <= q + q + (q + q)).
  { unfold q, s. assert (Z := Qc_sq_nonneg (a + b)). replace ((a * a + (b * b + 0)) / (1 + 1) + (a * a + (b * b + 0)) / (1 + 1) + ((a * a + (b * b + 0)) / (1 + 1) + (a * a + (b * b + 0)) / (1 + 1))) with ((a - b) * (a - b) + (a + b) * (a + b)) by (field; discriminate).
    set (x := (a + b) * (a + b)) in *. set (y := (a - b) * (a - b)). clearbody x y. clear - Z. qclra. }
  clearbody q s. replace (Q2Qc (1 # 4) * (h1 + (h2 + 0))) with (Q2Qc (1 # 4) * h1 + Q2Qc (1 # 4) * h2) in HN by ring. replace (Q2Qc (1 # 8) * (g1 + (g2 + 0))) with (Q2Qc (1 # 8) * g1 + Q2Qc (1 # 8) * g2) by ring.
  assert (SS : (1 - s) * (1 - s) <= Q2Qc (1 # 16) * Q2Qc (1 # 16)).
  { replace ((1 - s) * (1 - s)) with (1 - s - s + s * s) by ring. replace (Q2Qc (1 # 16) * Q2Qc (1 # 16)) with (Q2Qc (1 # 256)) by (apply Qc_is_canon; vm_compute; reflexivity). unfold eps in HN. set (x := s * s) in *. clearbody x. clear - HN QS Q1 Q2. qccra. }
  apply sq_small in SS; [|discriminate]. assert (S15 : Q2Qc (15 # 16) * Q2Qc (15 # 16) <= s * s).
  { assert (Z : 0 <= (s - Q2Qc (15 # 16)) * (s + Q2Qc (15 # 16))) by (apply Qcmult_nonneg; clear - SS; qclra). replace ((s - Q2Qc (15 # 16)) * (s + Q2Qc (15 # 16))) with (s * s - Q2Qc (15 # 16) * Q2Qc (15 # 16)) in Z by ring.
    set (x := s * s) in *. set (y := Q2Qc (15 # 16) * Q2Qc (15 # 16)) in *. clearbody x y. clear - Z. qclra. }
  replace (Q2Qc (15 # 16) * Q2Qc (15 # 16)) with (Q2Qc (225 # 256)) in S15 by (apply Qc_is_canon; vm_compute; reflexivity). set (x := s * s) in *. clearbody x. clear - P1 P2 QS S15. qccra.
Qed.
Lemma parallel_refuted : exists N, forall k, (N <= k)%nat -> exists w c,
  sg_fit (ex31_prm (Q2Qc (1 # 8)) (ofN 10) k 2 None false) ex10_bm (fun _ S => S) false ex12_S sg_new = Ok (SGLearner k (Some (w, Q2Qc (1 # 4), c))) /\
  ~ near_minimal ex9_task 2 (Q2Qc (1 # 8)) ex12_S w (Q2Qc (1 # 64)).
Proof.
  destruct (parallel_converges ex9_task 2 (Q2Qc (1 # 8)) (ofN 10) ex10_bm ex12_S (1 + 1) sg_new) with (b := 2%nat) (eps := Q2Qc (1 # 1024)) as [N HN];
    [reflexivity|discriminate|cbn; lia|reflexivity|apply ones_oracle, ex12_ones|apply ones_spread, ex12_ones|reflexivity|lia|reflexivity|].
  exists N. intros k Hk. destruct (HN (ex31_prm (Q2Qc (1 # 8)) (ofN 10) k 2 None false) false (fun _ S => S)) as [w [c [A1 A2]]].
  - repeat split. - split; [reflexivity|]. split; [lia|]. left. split; reflexivity. - reflexivity. - intros it S'. apply Permutation_refl. - discriminate. - exact Hk.
  - exists w, c. split.
    + rewrite A1. cbn [sg_new sl_t]. change (batch_count (length ex12_S) 2) with 1%nat. cbn [ex31_prm sg_max_iter]. rewrite Nat.mul_1_r, Nat.add_0_l.
      replace (Q2Qc (1 # 8) * ofN (length ex12_S)) with (Q2Qc (1 # 4)) by (apply Qc_is_canon; vm_compute; reflexivity). reflexivity.
    + apply parallel_elsewhere. replace (Q2Qc (1 # 4)) with (Q2Qc (1 # 8) * ofN (length ex12_S) / ofN (batch_count (length ex12_S) 2)) by (apply Qc_is_canon; vm_compute; reflexivity). exact A2.
Qed.

(** *** batches of different sizes *)
Lemma uneven_elsewhere (C := Q2Qc (1 # 4)) w : near_minimal_weighted ex9_task 2 (batch_factors C 3 [2; 1]%nat) ex31_S w (Q2Qc (1 # 256)) -> ~ near_minimal ex9_task 2 C ex31_S w (Q2Qc (1 # 64)).
Proof.
  intros [HL [hs [Hh HN]]]. destruct (two_weights w HL) as [a [b ->]]. specialize (HN [0; 0] [1; 1; 1] eq_refl).
  assert (H0 : hinges ex9_task [0; 0] ex31_S [1; 1; 1]).
  { constructor; [|constructor; [|constructor; [|constructor]]]; cbn [fst snd]; first [apply is_hinge0|apply is_hinge1]; try discriminate; try (vm_compute; discriminate); right; apply Qc_is_canon; vm_compute; reflexivity. }
  specialize (HN H0). clear H0.
  assert (PV : weighted_value (batch_factors C 3 [2; 1]%nat) [0; 0] [1; 1; 1] + Q2Qc (1 # 256) = Q2Qc (193 # 256)) by (apply Qc_is_canon; vm_compute; reflexivity). rewrite PV in HN. clear PV.
  assert (EB : batch_factors C 3 [2; 1]%nat = [Q2Qc (3 # 16); Q2Qc (3 # 16); Q2Qc (3 # 8)]) by (apply maps_this; vm_compute; reflexivity). rewrite EB in HN. clear EB.
  apply near_fails with (v := [Q2Qc (1 # 4); Q2Qc (-1 # 4)]) (hv := [Q2Qc (1 # 2); Q2Qc (1 # 2); Q2Qc (3 # 2)]); [|reflexivity|].
  2:{ constructor; [|constructor; [|constructor; [|constructor]]]; cbn [fst snd]; first [apply is_hinge0|apply is_hinge1]; try discriminate; try (vm_compute; discriminate); right; apply Qc_is_canon; vm_compute; reflexivity. }
  inversion Hh as [|p1 h1 S1 hs1 H1 H2]; subst p1 S1 hs. inversion H2 as [|p2 h2 S2 hs2 H3 H4]; subst p2 S2 hs1. inversion H4 as [|p3 h3 S3 hs3 H5 H6]; subst p3 S3 hs2. inversion H6; subst hs3. cbn [fst snd] in H1, H3, H5.
  apply hinge0 in H1, H3. apply hinge1 in H5. destruct H1 as [_ Q1], H3 as [_ Q2], H5 as [_ Q3]. clear H2 H4 H6 Hh.
  intros hs Hh. inversion Hh as [|p1 g1 S1 hs1 H1 H2]; subst p1 S1 hs. inversion H2 as [|p2 g2 S2 hs2 H3 H4]; subst p2 S2 hs1. inversion H4 as [|p3 g3 S3 hs3 H5 H6]; subst p3 S3 hs2. inversion H6; subst hs3. cbn [fst snd] in H1, H3, H5.
  apply hinge0 in H1, H3. apply hinge1 in H5. destruct H1 as [_ P1], H3 as [_ P2], H5 as [_ P3]. clear H2 H4 H6 Hh.
  assert (PV : primal_value C [Q2Qc (1 # 4); Q2Qc (-1 # 4)] [Q2Qc (1 # 2); Q2Qc (1 # 2); Q2Qc (3 # 2)] + Q2Qc (1 # 64) = Q2Qc (45 # 64)) by (apply Qc_is_canon; vm_compute; reflexivity). rewrite PV. clear PV.
  unfold primal_value, weighted_value in *. cbn [lsum zipw] in *. change (normsq [a; b]) with (a * a + (b * b + 0)) in *. clear HL.
  set (q := (a * a + (b * b + 0)) / (1 + 1)) in *. set (s := a - b) in *.
  assert (QS : s * s <= q + q + (q + q)).
  { unfold q, s. assert (Z := Qc_sq_nonneg (a + b)). replace ((a * a + (b * b + 0)) / (1 + 1) + (a * a + (b * b + 0)) / (1 + 1) + ((a * a + (b * b + 0)) / (1 + 1) + (a * a + (b * b + 0)) / (1 + 1))) with ((a - b) * (a - b) + (a + b) * (a + b)) by (field; discriminate).
    set (x := (a + b) * (a + b)) in *. set (y := (a - b) * (a - b)). clearbody x y. clear - Z. qclra. }
  clearbody q s.
  assert (SS : s * s <= Q2Qc (1 # 8) * Q2Qc (1 # 8)).
  { replace (Q2Qc (1 # 8) * Q2Qc (1 # 8)) with (Q2Qc (1 # 64)) by (apply Qc_is_canon; vm_compute; reflexivity). set (x := s * s) in *. clearbody x. clear - HN QS Q1 Q2 Q3. qccra. }
  assert (Q0 : 0 <= s * s) by apply Qc_sq_nonneg. apply sq_small in SS; [|discriminate]. unfold C. set (x := s * s) in *. clearbody x. clear - P1 P2 P3 QS SS Q0. qccra.
Qed.
Lemma uneven_refuted : exists N, forall k, (N <= k)%nat -> exists w c,
  sg_fit (ex31_prm (Q2Qc (1 # 4)) (ofN 10) k 1 (Some 2%Z) true) ex10_bm (fun _ S => S) false ex31_S sg_new = Ok (SGLearner (k * 2) (Some (w, Q2Qc (3 # 4), c))) /\
  ~ near_minimal ex9_task 2 (Q2Qc (1 # 4)) ex31_S w (Q2Qc (1 # 64)).
Proof.
  destruct (uneven_converges ex9_task 2 (Q2Qc (1 # 4)) (ofN 10) ex10_bm ex31_S (1 + 1) sg_new) with (b := 2%Z) (eps := Q2Qc (1 # 256)) as [N HN];
    [reflexivity|discriminate|cbn; lia|reflexivity|apply ones_oracle, ex31_ones|apply ones_spread, ex31_ones|reflexivity|lia|apply ones_batches, ex31_ones|reflexivity|].
  exists N. intros k Hk. destruct (HN (ex31_prm (Q2Qc (1 # 4)) (ofN 10) k 1 (Some 2%Z) true) false (fun _ S => S)) as [w [c [A1 A2]]].
  - repeat split. - reflexivity. - reflexivity. - reflexivity. - discriminate. - exact Hk.
  - exists w, c. split; [|apply uneven_elsewhere; exact A2].
    rewrite A1. cbn [sg_new sl_t]. change (batch_count (length ex31_S) (Z.to_nat 2)) with 2%nat. cbn [ex31_prm sg_max_iter]. rewrite Nat.add_0_l.
    replace (Q2Qc (1 # 4) * ofN (length ex31_S)) with (Q2Qc (3 # 4)) by (apply Qc_is_canon; vm_compute; reflexivity). reflexivity.
Qed.
