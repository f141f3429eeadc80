From Verif Require Import Proofs.Arrays Proofs.LossProofs Proofs.CRFProofs Proofs.LearnerProofs
  Proofs.UnstructuredProofs2 Proofs.OneSlackProofs Model.FrankWolfe Spec.FrankWolfeSpec.
Notation mix := FrankWolfe.mix.

(** ** sums of vectors *)
Lemma vsum_length' d fs : Forall (fun f => length f = d) fs -> length (vsum d fs) = d.
Proof. intro H. apply vsum_length. apply Forall_forall. exact H. Qed.
Lemma get1_vsum' d fs j : Forall (fun f => length f = d) fs -> get1 (vsum d fs) j = lsum (map (fun f => get1 f j) fs).
Proof. intro H. apply get1_vsum. apply Forall_forall. exact H. Qed.
Lemma dot_vsum d w fs : Forall (fun f => length f = d) fs -> dot w (vsum d fs) = lsum (map (dot w) fs).
Proof.
  intro H. induction H as [|f fs Hf HF IH]; cbn [map lsum].
  - apply dot_vzero_r.
  - change (vsum d (f :: fs)) with (vadd f (vsum d fs)). rewrite dot_vadd_r, IH; auto. rewrite vsum_length'; auto.
Qed.
Lemma vmix_length g a b : length a = length b -> length (vmix g a b) = length a.
Proof. intro H. unfold vmix. rewrite vadd_length; rewrite !vscale_length; auto. Qed.
Lemma get1_vmix g a b i : length a = length b -> get1 (vmix g a b) i = mix g (get1 a i) (get1 b i).
Proof. intro H. unfold vmix, mix. rewrite get1_vadd by (rewrite !vscale_length; auto). rewrite !get1_vscale. reflexivity. Qed.
Lemma vmix_1 a b : length a = length b -> vmix 1 a b = b.
Proof.
  intro H. apply vec_ext. rewrite vmix_length; auto. intros i _. rewrite get1_vmix by auto. unfold mix. ring.
Qed.
Lemma mix_1 a b : mix 1 a b = b.
Proof. unfold mix. ring. Qed.
Lemma set_at_length {A} i (v : A) l : length (set_at i v l) = length l.
Proof. revert i. induction l as [|x l IH]; intros [|i]; cbn [set_at length]; auto. Qed.
Lemma set_at_map {A B} (f : A -> B) i v l : map f (set_at i v l) = set_at i (f v) (map f l).
Proof. revert i. induction l as [|x l IH]; intros [|i]; cbn [set_at map]; auto. f_equal. auto. Qed.
Lemma lsum_set_at i v l x : nth_error l i = Some x -> lsum (set_at i v l) = lsum l - x + v.
Proof.
  revert i. induction l as [|y l IH]; intros [|i] H; cbn [nth_error set_at lsum] in *; try discriminate.
  - injection H as <-. ring.
  - rewrite (IH i H). ring.
Qed.
Lemma set_at_Forall {A} (P : A -> Prop) i v l : P v -> Forall P l -> Forall P (set_at i v l).
Proof. intros Hv H. revert i. induction H; intros [|i]; cbn [set_at]; constructor; auto. Qed.
Lemma set_at_Forall2 {A B} (R : A -> B -> Prop) i v : forall la lb a, nth_error la i = Some a -> R a v -> Forall2 R la lb -> Forall2 R la (set_at i v lb).
Proof.
  intros la lb a Ha Hv H. revert i Ha. induction H; intros [|i] Ha; cbn [set_at nth_error] in *; try discriminate; constructor; auto.
  injection Ha as ->. auto.
Qed.
Lemma combine_set_at {A B} i (a : A) (b : B) la : forall lb, set_at i (a, b) (combine la lb) = combine (set_at i a la) (set_at i b lb).
Proof. revert i. induction la as [|x la IH]; intros [|i] [|y lb]; cbn [set_at combine]; auto. f_equal. auto. Qed.
Lemma nth_error_combine {A B} (la : list A) : forall (lb : list B) i a b, nth_error la i = Some a -> nth_error lb i = Some b -> nth_error (combine la lb) i = Some (a, b).
Proof.
  induction la as [|x la IH]; intros [|y lb] [|i] a b H1 H2; cbn [nth_error combine] in *; try discriminate; auto. congruence.
Qed.
Lemma index_ok {A} (l : list A) i v : index l i = Ok v -> nth_error l i = Some v.
Proof. unfold index. destruct (nth_error l i); congruence. Qed.

(** ** the dual problem *)
Section dual.
  Context {X Y : Type} (T : task X Y) (d : nat) (C : Qc) (n : nat).
  Definition sized (p : X * Y) : Prop := t_label T (fst p) (snd p) /\ t_loss T (snd p) (snd p) = 0 /\
    forall y', t_label T (fst p) y' -> length (t_feat T (fst p) y') = d.
  Lemma pair_length p y' : sized p -> t_label T (fst p) y' -> length (vsub (t_feat T (fst p) (snd p)) (t_feat T (fst p) y')) = d.
  Proof. intros [L [_ H]] Hy. rewrite vsub_length; rewrite !H; auto. Qed.
  Lemma block_lengths p (cs : list (Qc * Y)) : sized p -> Forall (fun q => 0 <= fst q /\ t_label T (fst p) (snd q)) cs ->
    Forall (fun f => length f = d) (map (fun q => vscale (fst q * C) (vsub (t_feat T (fst p) (snd p)) (t_feat T (fst p) (snd q)))) cs).
  Proof.
    intros Hp H. apply Forall_map. eapply Forall_impl; [|exact H]. intros q [_ Hq]. rewrite vscale_length. apply pair_length; auto.
  Qed.
  Lemma block_length p b : sized p -> block_point T d C n p b -> length (fst b) = d.
  Proof. intros Hp [cs [H1 [H2 [-> H4]]]]. apply vsum_length'. apply block_lengths; auto. Qed.
  Lemma block_pure p y' : sized p -> t_label T (fst p) y' ->
    block_point T d C n p (vscale C (vsub (t_feat T (fst p) (snd p)) (t_feat T (fst p) y')), t_loss T (snd p) y' / ofN n).
  Proof.
    intros Hp Hy. exists [(1, y')]. split; [|split; [|split]].
    - repeat constructor; auto. discriminate.
    - reflexivity.
    - cbn [map fst snd]. assert (L := pair_length p y' Hp Hy). apply vec_ext.
      + rewrite vsum_length'; [rewrite vscale_length; auto|]. constructor; [rewrite vscale_length; auto|constructor].
      + intros i _. rewrite get1_vsum' by (constructor; [rewrite vscale_length; auto|constructor]). cbn [map lsum]. rewrite !get1_vscale. ring.
    - cbn [map lsum fst snd]. ring.
  Qed.
  Lemma block_zero p : sized p -> block_point T d C n p (vzero d, 0).
  Proof.
    intro Hp. assert (L := Hp). destruct L as [L [Z F]]. assert (B := block_pure p (snd p) Hp L). rewrite Z in B.
    replace (0 / ofN n) with 0 in B by (unfold Qcdiv; ring).
    replace (vscale C _) with (vzero d) in B; auto. apply vec_ext.
    - rewrite vzero_length, vscale_length. symmetry. apply pair_length; auto.
    - intros i _. rewrite get1_vzero, get1_vscale, get1_vsub by reflexivity. ring.
  Qed.
  Lemma block_mix g p a b : sized p -> 0 <= g -> g <= 1 -> block_point T d C n p a -> block_point T d C n p b ->
    block_point T d C n p (vmix g (fst a) (fst b), mix g (snd a) (snd b)).
  Proof.
    intros Hp G0 G1 Ha Hb. assert (La := block_length p a Hp Ha). assert (Lb := block_length p b Hp Hb).
    destruct Ha as [ca [A1 [A2 [A3 A4]]]]. destruct Hb as [cb [B1 [B2 [B3 B4]]]].
    exists (map (fun q => ((1 - g) * fst q, snd q)) ca ++ map (fun q => (g * fst q, snd q)) cb).
    assert (NN : Forall (fun q : Qc * Y => 0 <= fst q /\ t_label T (fst p) (snd q))
              (map (fun q => ((1 - g) * fst q, snd q)) ca ++ map (fun q => (g * fst q, snd q)) cb)).
    { apply Forall_app. split; apply Forall_map; [eapply Forall_impl; [|exact A1]|eapply Forall_impl; [|exact B1]];
        intros q [Q1 Q2]; cbn [fst snd]; split; auto; apply Qcmult_nonneg; auto. qclra. }
    split; [exact NN|]. split; [|split].
    - rewrite map_app, !map_map, lsum_app. cbn [fst]. rewrite !lsum_map_mult_l, A2, B2. ring.
    - cbn [fst]. apply vec_ext. { rewrite vmix_length by congruence. rewrite vsum_length'; auto. apply block_lengths; auto. }
      intros i _. rewrite get1_vmix by congruence. rewrite get1_vsum' by (apply block_lengths; auto).
      rewrite A3, B3, !get1_vsum' by (apply block_lengths; auto). rewrite !map_map, map_app, !map_map, lsum_app. cbn [fst snd]. unfold mix.
      rewrite <- !lsum_map_mult_l. f_equal; apply lsum_map_ext; intros q _; rewrite !get1_vscale; ring.
    - cbn [snd]. rewrite A4, B4. rewrite map_app, !map_map, lsum_app. cbn [fst snd]. unfold mix.
      rewrite <- !lsum_map_mult_l. f_equal; apply lsum_map_ext; intros q _; ring.
  Qed.
  (** value of one block against the hinge loss *)
  Lemma block_bound p b w h : (0 < n)%nat -> 0 <= C -> sized p -> block_point T d C n p b -> is_hinge T w (fst p) (snd p) h ->
    C * ofN n * snd b - dot w (fst b) <= C * h.
  Proof.
    intros HN HC Hp [cs [H1 [H2 [H3 H4]]]] [_ HB]. rewrite H3, H4, dot_vsum by (apply block_lengths; auto). rewrite map_map.
    assert (E : C * ofN n * lsum (map (fun q => fst q * (t_loss T (snd p) (snd q) / ofN n)) cs) -
                lsum (map (fun q => dot w (vscale (fst q * C) (vsub (t_feat T (fst p) (snd p)) (t_feat T (fst p) (snd q))))) cs) =
                lsum (map (fun q => fst q * (C * margin T w (fst p) (snd p) (snd q))) cs)).
    { assert (NZ := ofN_neq0 n HN). clear H2 H3 H4. induction H1 as [|q cs [Q1 Q2] HF IH]; cbn [map lsum]; [ring|]. rewrite <- IH.
      destruct Hp as [L [_ F]]. rewrite dot_vscale_r. rewrite margin_sub by (rewrite !F; auto).
      set (z := ofN n) in *. set (a := dot w _). set (s := lsum _). set (t := lsum _). set (lo := t_loss T (snd p) (snd q)). clearbody z a s t lo. field. auto. }
    rewrite E. replace (C * h) with (lsum (map (fun q => fst q * (C * h)) cs)).
    2:{ assert (R : forall k, lsum (map (fun q : Qc * Y => fst q * k) cs) = lsum (map fst cs) * k).
        { intro k. clear. induction cs; cbn [map lsum]; [ring|rewrite IHcs; ring]. } rewrite R, H2. ring. }
    apply lsum_map_le. intros q Hq. rewrite Forall_forall in H1. destruct (H1 q Hq) as [Q1 Q2].
    rewrite !(Qcmult_comm (fst q)). apply Qcmult_le_compat_r; auto. rewrite !(Qcmult_comm C). apply Qcmult_le_compat_r; auto.
  Qed.
  Lemma blocks_bound w : (0 < n)%nat -> 0 <= C -> forall S bs hs, Forall sized S -> Forall2 (block_point T d C n) S bs -> hinges T w S hs ->
    C * ofN n * lsum (map snd bs) - dot w (vsum d (map fst bs)) <= C * lsum hs.
  Proof.
    intros HN HC S bs hs HS HB HH. rewrite dot_vsum.
    2:{ clear HH hs. apply Forall_map. induction HB; constructor. eapply block_length; eauto. apply Forall_cons_iff in HS. tauto. apply IHHB. apply Forall_cons_iff in HS. tauto. }
    revert hs HH. induction HB as [|p b S bs Hb HB IH]; intros hs HH; inversion HH; subst; cbn [map lsum].
    - replace (C * ofN n * 0 - 0) with 0 by ring. replace (C * 0) with 0 by ring. apply Qcle_refl.
    - apply Forall_cons_iff in HS. destruct HS as [Hp HS]. match goal with H : is_hinge _ _ _ _ _ |- _ => assert (Q := block_bound p b w _ HN HC Hp Hb H) end.
      match goal with H : Forall2 _ S ?l |- _ => specialize (IH HS l H) end.
      rewrite !Qcmult_plus_distr_r. set (s := lsum (map (dot w) (map fst bs))) in *. set (u := C * ofN n * snd b) in *. set (v := C * ofN n * lsum (map snd bs)) in *.
      set (a := dot w (fst b)) in *. match goal with |- _ <= C * ?x + C * ?y => set (k1 := C * x) in *; set (k2 := C * y) in * end.
      clearbody s u v a k1 k2. qclra.
  Qed.
End dual.

(** the samples a well-formed sample consists of *)
Lemma good_sized {X Y} (T : task X Y) d Xs Ys : good T d Xs Ys -> Forall (sized T d) (combine Xs Ys).
Proof. intros [_ H]. apply Forall_forall. exact H. Qed.

Lemma feasible_blocks {X Y} (T : task X Y) d C n (S : list (X * Y)) bs : Forall (sized T d) S -> Forall2 (block_point T d C n) S bs -> Forall (fun f => length f = d) (map fst bs).
Proof.
  intros HS HB. apply Forall_map. induction HB; constructor; apply Forall_cons_iff in HS; [eapply block_length; [|eauto]; tauto|apply IHHB; tauto].
Qed.
Lemma feasible_length {X Y} (T : task X Y) d C S w l : Forall (sized T d) S -> dual_feasible T d C S w l -> length w = d.
Proof. intros HS [bs [HB [-> _]]]. apply vsum_length'. eapply feasible_blocks; eauto. Qed.
(** weak duality *)
Lemma fw_weak {X Y} (T : task X Y) d C S w l w' hs : (0 < length S)%nat -> 0 <= C -> Forall (sized T d) S -> dual_feasible T d C S w l ->
  length w' = d -> hinges T w' S hs -> dual_objective C (length S) w l <= primal_value C w' hs.
Proof.
  intros HN HC HS HF Hw HH. assert (LW := feasible_length _ _ _ _ _ _ HS HF). destruct HF as [bs [HB [Ew El]]].
  assert (B := blocks_bound T d C (length S) w' HN HC S bs hs HS HB HH). rewrite <- Ew, <- El in B.
  unfold dual_objective, primal_value. assert (A := normsq_nonneg (vsub w w')).
  unfold normsq in A. rewrite dot_vsub_l, !dot_vsub_r in A by congruence. fold (normsq w) (normsq w') in A. rewrite (dot_comm w w') in A.
  set (a := normsq w) in *. set (b := normsq w') in *. set (e := dot w' w) in *. set (k := C * ofN (length S) * l) in *. set (h := C * lsum hs) in *.
  clearbody a b e k h. clear - A B.
  assert (P : 0 <= (a - e - (e - b)) / (1 + 1)) by (apply Qchalf_nonneg; auto).
  replace ((a - e - (e - b)) / (1 + 1)) with (a / (1 + 1) + b / (1 + 1) - e) in P by (field; discriminate).
  set (x := a / (1 + 1)) in *. set (y := b / (1 + 1)) in *. clearbody x y. qclra.
Qed.
(** mixing *)
Lemma feasible_mix {X Y} (T : task X Y) d C S g w1 l1 w2 l2 : Forall (sized T d) S -> 0 <= g -> g <= 1 ->
  dual_feasible T d C S w1 l1 -> dual_feasible T d C S w2 l2 -> dual_feasible T d C S (vmix g w1 w2) (mix g l1 l2).
Proof.
  intros HS G0 G1 [b1 [H1 [E1 F1]]] [b2 [H2 [E2 F2]]].
  assert (L1 := feasible_blocks _ _ _ _ _ _ HS H1). assert (L2 := feasible_blocks _ _ _ _ _ _ HS H2).
  exists (zipw (fun a b => (vmix g (fst a) (fst b), mix g (snd a) (snd b))) b1 b2). subst w1 l1 w2 l2. unfold dual_feasible in *. revert H1 H2. generalize (length S) as n. intros n H1 H2. split.
  - revert b2 H2 L1 L2. induction H1 as [|p a S b1 Ha H1 IH]; intros b2 H2 L1 L2; inversion H2; subst; cbn [zipw]; constructor.
    + apply Forall_cons_iff in HS. apply block_mix; auto; tauto.
    + apply Forall_cons_iff in HS. apply Forall_cons_iff in L1. apply Forall_cons_iff in L2. apply IH; tauto.
  - assert (LL : length b1 = length b2) by (clear - H1 H2; revert b2 H2; induction H1; intros b2 H2; inversion H2; subst; cbn; auto).
    assert (LZ : Forall (fun f => length f = d) (map fst (zipw (fun a b => (vmix g (fst a) (fst b), mix g (snd a) (snd b))) b1 b2))).
    { clear - L1 L2. revert b2 L2. induction b1 as [|a b1 IH]; intros [|b b2] L2; cbn [zipw map]; constructor; cbn [map] in *;
        apply Forall_cons_iff in L1; apply Forall_cons_iff in L2; [cbn [fst]; rewrite vmix_length; tauto || (destruct L1, L2; congruence)|apply IH; tauto]. }
    split.
    + apply vec_ext. { rewrite vmix_length; rewrite !vsum_length'; auto. }
      intros i _. rewrite get1_vmix by (rewrite !vsum_length'; auto). rewrite !get1_vsum' by auto. unfold mix. clear LZ HS H1 H2.
      revert b2 L2 LL. induction b1 as [|a b1 IH]; intros [|b b2] L2 LL; try discriminate; cbn [map zipw lsum fst].
      * ring.
      * cbn [map] in *. apply Forall_cons_iff in L1. apply Forall_cons_iff in L2. rewrite <- IH; [|tauto|tauto|cbn in LL; lia].
        rewrite get1_vmix by (destruct L1, L2; congruence). unfold mix. ring.
    + unfold mix. clear - LL. revert b2 LL. induction b1 as [|a b1 IH]; intros [|b b2] LL; try discriminate; cbn [map zipw lsum snd].
      * ring.
      * rewrite <- IH by (cbn in LL; lia). ring.
Qed.
