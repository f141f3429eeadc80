From Verif Require Import Model.Common Spec.Energy Proofs.Arrays.

Lemma labelling_lt n k y i : labelling n k y -> (i < n)%nat -> (lab y i < k)%nat.
Proof. intros [L F] H. unfold lab. apply Forall_nth_lt; [exact F|lia]. Qed.

Lemma graph_edges_nth n edges e : graph_edges n edges -> (e < length edges)%nat ->
  (fst (nth e edges (0,0)%nat) < n)%nat /\ (snd (nth e edges (0,0)%nat) < n)%nat.
Proof. intros F H. unfold graph_edges in F. rewrite Forall_forall in F. apply F, nth_In, H. Qed.

Lemma energy_loop_spec n k edges : forall pws labels acc,
  graph_edges n edges -> labelling n k labels -> length pws = length edges ->
  energy_loop k edges pws labels acc =
  Ok (acc + sumn (length edges) (fun e => get2 (nth e pws []) (lab labels (fst (nth e edges (0,0)%nat)))
                                                (lab labels (snd (nth e edges (0,0)%nat))))).
Proof.
  induction edges as [|[a b] es IH]; intros pws labels acc Hg Hl Hlen.
  - destruct pws; [|discriminate]. simpl. rewrite sumn_O. f_equal. ring.
  - destruct pws as [|pw ps]; [discriminate|].
    inversion Hg as [|? ? [Ha Hb] Hg']; subst. simpl in Ha, Hb.
    simpl energy_loop. destruct (Hl) as [HL _].
    rewrite (index_ok labels a O), (index_ok labels b O) by lia. simpl.
    assert (A := labelling_lt _ _ _ _ Hl Ha). assert (B := labelling_lt _ _ _ _ Hl Hb). unfold lab in A, B.
    replace ((nth a labels 0 <? k) && (nth b labels 0 <? k))%nat with true
      by (symmetry; apply andb_true_iff; split; apply Nat.ltb_lt; assumption).
    simpl. rewrite IH; auto. rewrite sumn_S_l. simpl. f_equal. unfold lab. ring.
Qed.

Lemma compute_energy_pw2 unary m edges y n k :
  mrows unary = n -> mcols unary = k -> mrows m = k -> mcols m = k ->
  graph_edges n edges -> labelling n k y ->
  compute_energy unary (Pw2 m) edges y =
  Ok (score n edges (mget unary) (fun _ => mget m) (lab y)).
Proof.
  intros Hn Hk Hr Hc Hg Hl. unfold compute_energy, validate_params. rewrite Hk, Hr, Hc, !Nat.eqb_refl. simpl.
  destruct Hl as [HL HF]. rewrite Hn, HL, Nat.leb_refl.
  assert (F' := HF). apply forallb_lt_Forall in F'. rewrite F'. simpl.
  rewrite (energy_loop_spec n k) by (auto; try (split; assumption); apply repeat_length).
  unfold score. f_equal. f_equal. apply sumn_ext. intros e He. unfold mget. f_equal.
  apply (repeat_spec (length edges) (mdat m)). apply nth_In. rewrite repeat_length. exact He.
Qed.

Lemma compute_energy_pw3 unary d edges y n k :
  mrows unary = n -> mcols unary = k -> length d = length edges ->
  graph_edges n edges -> labelling n k y ->
  compute_energy unary (Pw3 (length edges) k k d) edges y =
  Ok (score n edges (mget unary) (fun e => get2 (nth e d [])) (lab y)).
Proof.
  intros Hn Hk Hd Hg Hl. unfold compute_energy, validate_params. rewrite Hk, !Nat.eqb_refl. simpl.
  destruct Hl as [HL HF]. rewrite Hn, HL, Nat.leb_refl.
  assert (F' := HF). apply forallb_lt_Forall in F'. rewrite F'. simpl.
  rewrite (energy_loop_spec n k) by (auto; split; assumption).
  reflexivity.
Qed.
