(** On a forest the local polytope is the set of marginals of mixtures of labellings. *)
From Coq Require Import Relation_Operators.
From Verif Require Import Spec.MixtureSpec Spec.GraphTheory.

(** ** means *)
Lemma mean_ext D f g : (forall w y, In (w, y) D -> w * f y = w * g y) -> mean D f = mean D g.
Proof. intros H. unfold mean. apply lsum_map_ext. intros [w y] I. exact (H w y I). Qed.
Lemma mean_mult_l D c f : mean D (fun y => c * f y) = c * mean D f.
Proof. unfold mean. rewrite <- lsum_map_mult_l. apply lsum_map_ext. intros p _. ring. Qed.
Lemma mean_plus D f g : mean D (fun y => f y + g y) = mean D f + mean D g.
Proof. unfold mean. rewrite <- lsum_map_plus. apply lsum_map_ext. intros p _. ring. Qed.
Lemma mean_sumn D m (f : nat -> list nat -> Qc) : mean D (fun y => sumn m (fun i => f i y)) = sumn m (fun i => mean D (f i)).
Proof.
  unfold mean. rewrite <- (lsum_swap D m (fun p i => fst p * f i (snd p))). apply lsum_map_ext. intros p _.
  now rewrite sumn_mult_l.
Qed.
Lemma mean_app D1 D2 f : mean (D1 ++ D2) f = mean D1 f + mean D2 f.
Proof. unfold mean. now rewrite map_app, lsum_app. Qed.
Lemma mean_nonneg D f : Forall (fun p => 0 <= fst p) D -> (forall y, 0 <= f y) -> 0 <= mean D f.
Proof.
  intros HD Hf. apply lsum_nonneg. intros x I. apply in_map_iff in I. destruct I as (p & <- & I).
  rewrite Forall_forall in HD. specialize (HD p I). specialize (Hf (snd p)). apply Qcmult_nonneg; assumption.
Qed.
Lemma mean_flat {A} (l : list A) (g : A -> list (Qc * list nat)) f :
  mean (flat_map g l) f = lsum (map (fun a => mean (g a) f) l).
Proof.
  induction l as [|a l IH]; [reflexivity|]. cbn [flat_map map]. rewrite mean_app, IH. reflexivity.
Qed.
(** grouping by the label of a node *)
Lemma mean_group D n k a (f : nat -> Qc) :
  Forall (fun p => labelling n k (snd p)) D -> (a < n)%nat ->
  mean D (fun y => f (lab y a)) = sumn k (fun s => f s * mean D (fun y => one_hot_mu (lab y) a s)).
Proof.
  intros HD Ha.
  transitivity (mean D (fun y => sumn k (fun s => f s * one_hot_mu (lab y) a s))).
  - apply mean_ext. intros w y I. f_equal. rewrite Forall_forall in HD. specialize (HD _ I). destruct HD as [L F].
    cbn [snd] in *. unfold one_hot_mu.
    rewrite (sumn_ext k _ (fun s => ind (s =? lab y a)%nat * f s)) by (intros; ring).
    rewrite sumn_pick; [reflexivity|]. unfold lab. rewrite Forall_forall in F. apply F, nth_In. now rewrite L.
  - rewrite mean_sumn. apply sumn_ext. intros s _. apply mean_mult_l.
Qed.
Lemma weight_zero D n k a w y mu :
  Forall (fun p => 0 <= fst p /\ labelling n k (snd p)) D -> In (w, y) D ->
  mean D (fun z => one_hot_mu (lab z) a (lab y a)) = mu -> mu = 0 -> w = 0.
Proof.
  intros HD I <- E. unfold mean in E.
  assert (P : forall p, In p D -> 0 <= fst p * one_hot_mu (lab (snd p)) a (lab y a)).
  { intros p J. rewrite Forall_forall in HD. destruct (HD p J) as [Hp _]. unfold one_hot_mu, ind.
    destruct (_ =? _)%nat; [now rewrite Qcmult_1_r|rewrite Qcmult_0_r; apply Qcle_refl]. }
  clear HD. induction D as [|p D IH]; [destruct I|].
  cbn [map lsum] in E.
  assert (0 <= lsum (map (fun p => fst p * one_hot_mu (lab (snd p)) a (lab y a)) D)).
  { apply lsum_nonneg. intros x J. apply in_map_iff in J. destruct J as (q & <- & J). apply P. now right. }
  pose proof (P p (or_introl eq_refl)).
  destruct I as [->|I].
  - cbn [fst snd] in *. unfold one_hot_mu, ind in *. rewrite Nat.eqb_refl in *.
    generalize dependent (lsum (map (fun p => fst p * (if (lab y a =? lab (snd p) a)%nat then 1 else 0)) D)). intros T E HT HW.
    rewrite Qcmult_1_r in *. apply Qcle_antisym; qclra.
  - apply IH; auto. generalize dependent (lsum (map (fun p => fst p * one_hot_mu (lab (snd p)) a (lab y a)) D)).
    generalize dependent (fst p * one_hot_mu (lab (snd p)) a (lab y a)). intros; apply Qcle_antisym; qclra.
    intros q J. apply P. now right.
Qed.

(** ** one node after the other: independent nodes *)
Fixpoint product_mix (k : nat) (mu : nat -> nat -> Qc) (m : nat) : list (Qc * list nat) :=
  match m with
  | O => [(1, [])]
  | S m' => flat_map (fun p => map (fun s => (fst p * mu m' s, snd p ++ [s])) (seq 0 k)) (product_mix k mu m')
  end.
Lemma product_ok k mu m : (forall i s, (i < m)%nat -> (s < k)%nat -> 0 <= mu i s) ->
  Forall (fun p => 0 <= fst p /\ labelling m k (snd p)) (product_mix k mu m).
Proof.
  induction m as [|m IH]; intros H; cbn [product_mix].
  - repeat constructor. discriminate.
  - apply Forall_forall. intros p I. apply in_flat_map in I. destruct I as (q & Iq & I).
    apply in_map_iff in I. destruct I as (s & <- & I). apply in_seq in I.
    assert (Q : 0 <= fst q /\ labelling m k (snd q)).
    { revert q Iq. apply Forall_forall. apply IH. intros. apply H; lia. }
    destruct Q as [Q [L F]]. cbn [fst snd]. split.
    + apply Qcmult_nonneg; [assumption|]. apply H; lia.
    + split. rewrite app_length, L. cbn. lia. apply Forall_app. split; [assumption|]. constructor; [lia|constructor].
Qed.
Lemma product_mean k mu m (f : list nat -> Qc) (g : list nat -> Qc) :
  sumn k (mu m) = 1 -> (forall y s, length y = m -> f (y ++ [s]) = g y) ->
  (forall p, In p (product_mix k mu m) -> length (snd p) = m) ->
  mean (product_mix k mu (S m)) f = mean (product_mix k mu m) g.
Proof.
  intros H1 Hf HL. cbn [product_mix]. rewrite mean_flat. unfold mean at 2. apply lsum_map_ext. intros p I.
  unfold mean. rewrite map_map. cbn [fst snd].
  transitivity (lsum (map (fun s => mu m s * (fst p * g (snd p))) (seq 0 k))).
  - apply lsum_map_ext. intros s _. rewrite Hf by (apply HL; assumption). ring.
  - change (lsum (tab1 k (fun s => mu m s * (fst p * g (snd p)))) = fst p * g (snd p)).
    rewrite lsum_tab1, sumn_mult_r, H1. ring.
Qed.
Lemma product_marginals k mu m :
  (forall i s, (i < m)%nat -> (s < k)%nat -> 0 <= mu i s) -> (forall i, (i < m)%nat -> sumn k (mu i) = 1) ->
  mean (product_mix k mu m) (fun _ => 1) = 1 /\
  forall i s, (i < m)%nat -> (s < k)%nat -> mu i s = mean (product_mix k mu m) (fun y => one_hot_mu (lab y) i s).
Proof.
  induction m as [|m IH]; intros H0 H1.
  - split; [|intros; lia]. unfold mean. cbn. ring.
  - destruct IH as [I1 I2]. intros; apply H0; lia. intros; apply H1; lia.
    assert (HL : forall p, In p (product_mix k mu m) -> length (snd p) = m).
    { intros p J. assert (Q : Forall (fun p => 0 <= fst p /\ labelling m k (snd p)) (product_mix k mu m)).
      apply product_ok. intros; apply H0; lia. rewrite Forall_forall in Q. apply (Q p J). }
    split.
    + rewrite (product_mean k mu m _ (fun _ => 1)); auto.
    + intros i s Hi Hs. destruct (Nat.eq_dec i m) as [->|Hne].
      * cbn [product_mix]. rewrite mean_flat.
        transitivity (lsum (map (fun p => mu m s * (fst p * 1)) (product_mix k mu m))).
        { rewrite lsum_map_mult_l. change (mu m s = mu m s * mean (product_mix k mu m) (fun _ => 1)). rewrite I1. ring. }
        apply lsum_map_ext. intros p J. unfold mean. rewrite map_map. cbn [fst snd].
        transitivity (lsum (tab1 k (fun t => ind (t =? s)%nat * (fst p * mu m t)))).
        { rewrite lsum_tab1, sumn_pick by assumption. ring. }
        unfold tab1. apply lsum_map_ext. intros t It. unfold one_hot_mu, lab.
        rewrite app_nth2 by (rewrite (HL p J); lia). rewrite (HL p J), Nat.sub_diag. cbn [nth].
        rewrite Nat.eqb_sym. ring.
      * rewrite (product_mean k mu m _ (fun y => one_hot_mu (lab y) i s)); auto.
        apply I2; lia. intros y t L. unfold one_hot_mu, lab. now rewrite app_nth1 by lia.
Qed.

(** ** components *)
Fixpoint comp (edges : list (nat * nat)) (i : nat) : nat :=
  match edges with
  | [] => i
  | (a, b) :: r => if (comp r i =? comp r b)%nat then comp r a else comp r i
  end.
Lemma connected_mono E E' a b : (forall e, In e E -> In e E') -> connected E a b -> connected E' a b.
Proof.
  intros H C. induction C as [x y I|x|x y _ IH|x y z _ IH1 _ IH2].
  - apply rst_step. auto.
  - apply rst_refl.
  - now apply rst_sym.
  - now apply rst_trans with y.
Qed.
Lemma comp_connected E i : connected E i (comp E i).
Proof.
  induction E as [|[a b] E IH] in i |- *; cbn [comp].
  - apply rst_refl.
  - assert (M : forall x y, connected E x y -> connected ((a, b) :: E) x y).
    { intros x y. apply connected_mono. intros e J. now right. }
    destruct (comp E i =? comp E b)%nat eqn:Q.
    + apply Nat.eqb_eq in Q. apply rst_trans with (comp E i). apply M, IH. rewrite Q.
      apply rst_trans with b. apply rst_sym, M, IH. apply rst_trans with a.
      apply rst_sym, rst_step. now left. apply M, IH.
    + apply M, IH.
Qed.
Lemma comp_eq_connected E i j : comp E i = comp E j -> connected E i j.
Proof. intros H. apply rst_trans with (comp E i). apply comp_connected. rewrite H. apply rst_sym, comp_connected. Qed.
Lemma comp_edge E a b : In (a, b) E -> comp E a = comp E b.
Proof.
  induction E as [|[c d] E IH]; [intros []|]. intros [H|H]; cbn [comp].
  - injection H as -> ->. rewrite Nat.eqb_refl. destruct (_ =? _)%nat; reflexivity.
  - now rewrite (IH H).
Qed.
Lemma acyclic_cons a b E : acyclic ((a, b) :: E) -> acyclic E /\ comp E a <> comp E b.
Proof.
  intros H. split.
  - intros e c d He C. apply (H (S e) c d He). cbn [firstn skipn app]. revert C. apply connected_mono.
    intros x J. now right.
  - intros Q. apply (H O a b eq_refl). cbn [firstn skipn app]. now apply comp_eq_connected.
Qed.

(** ** adding an edge between two components *)
Definition glue (n : nat) (side : nat -> bool) (y z : list nat) : list nat :=
  map (fun i => if side i then nth i y O else nth i z O) (seq 0 n).
Definition join (n : nat) (side : nat -> bool) (q : nat -> nat -> Qc) (a b : nat) (D : list (Qc * list nat)) : list (Qc * list nat) :=
  flat_map (fun p => map (fun r => (fst p * fst r * q (lab (snd p) a) (lab (snd r) b), glue n side (snd p) (snd r))) D) D.
Lemma lab_glue n side y z i : (i < n)%nat -> lab (glue n side y z) i = if side i then lab y i else lab z i.
Proof. intros H. unfold lab, glue. now rewrite nth_map_seq. Qed.

Section Join.
  Variables (n k a b : nat) (side : nat -> bool) (D : list (Qc * list nat)).
  Variables (ma mb : nat -> Qc) (nu : nat -> nat -> Qc).
  Hypothesis HD : Forall (fun p => 0 <= fst p /\ labelling n k (snd p)) D.
  Hypothesis Ha : (a < n)%nat.
  Hypothesis Hb : (b < n)%nat.
  Hypothesis Ma : forall s, (s < k)%nat -> ma s = mean D (fun y => one_hot_mu (lab y) a s).
  Hypothesis Mb : forall s, (s < k)%nat -> mb s = mean D (fun y => one_hot_mu (lab y) b s).
  Hypothesis Na : forall s, (s < k)%nat -> sumn k (fun t => nu s t) = ma s.
  Hypothesis Nb : forall t, (t < k)%nat -> sumn k (fun s => nu s t) = mb t.
  Hypothesis Nn : forall s t, (s < k)%nat -> (t < k)%nat -> 0 <= nu s t.
  Let q s t := nu s t / (ma s * mb t).
  Let J := join n side q a b D.

  Lemma D_labels : Forall (fun p => labelling n k (snd p)) D.
  Proof. revert HD. apply Forall_impl. intros p H. apply H. Qed.
  Lemma D_lab w y i : In (w, y) D -> (i < n)%nat -> (lab y i < k)%nat.
  Proof.
    intros I Hi. pose proof D_labels as F. rewrite Forall_forall in F. destruct (F _ I) as [L G]. cbn [snd] in *.
    rewrite Forall_forall in G. unfold lab. apply G, nth_In. now rewrite L.
  Qed.
  Lemma ma_zero s t : (s < k)%nat -> (t < k)%nat -> ma s = 0 -> nu s t = 0.
  Proof. intros Hs Ht E. apply (sumn_eq0 k (fun t => nu s t)); auto. now rewrite Na. Qed.
  Lemma mb_zero s t : (s < k)%nat -> (t < k)%nat -> mb t = 0 -> nu s t = 0.
  Proof. intros Hs Ht E. apply (sumn_eq0 k (fun s => nu s t)); auto. now rewrite Nb. Qed.
  Lemma q_back s t : (s < k)%nat -> (t < k)%nat -> q s t * (ma s * mb t) = nu s t.
  Proof.
    intros Hs Ht. unfold q. destruct (Qc_eq_dec (ma s) 0) as [E|E].
    - rewrite (ma_zero s t) by assumption. unfold Qcdiv. ring.
    - destruct (Qc_eq_dec (mb t) 0) as [E'|E'].
      + rewrite (mb_zero s t) by assumption. unfold Qcdiv. ring.
      + field. split; assumption.
  Qed.
  Lemma ma_nonneg s : (s < k)%nat -> 0 <= ma s.
  Proof. intros Hs. rewrite <- Na by assumption. apply sumn_nonneg. intros; auto. Qed.
  Lemma mb_nonneg s : (s < k)%nat -> 0 <= mb s.
  Proof. intros Hs. rewrite <- Nb by assumption. apply sumn_nonneg. intros; auto. Qed.
  Lemma q_nonneg s t : (s < k)%nat -> (t < k)%nat -> 0 <= q s t.
  Proof.
    intros Hs Ht. unfold q, Qcdiv. pose proof (ma_nonneg s Hs). pose proof (mb_nonneg t Ht). pose proof (Nn s t Hs Ht).
    assert (P : 0 <= ma s * mb t) by (apply Qcmult_nonneg; assumption).
    destruct (Qc_eq_dec (ma s * mb t) 0) as [E|E].
    - rewrite E. replace (/ 0) with 0 by reflexivity. rewrite Qcmult_0_r. apply Qcle_refl.
    - apply Qcmult_nonneg; [assumption|]. apply Qclt_le_weak. apply Qcinv_pos. 
      apply Qcle_lt_or_eq in P. destruct P as [P|P]; [assumption|congruence].
  Qed.
  Lemma join_ok : Forall (fun p => 0 <= fst p /\ labelling n k (snd p)) J.
  Proof.
    apply Forall_forall. intros p I. apply in_flat_map in I. destruct I as ([w y] & Iy & I).
    apply in_map_iff in I. destruct I as ([v z] & <- & Iz). cbn [fst snd].
    pose proof HD as F. rewrite Forall_forall in F. destruct (F _ Iy) as [Hw _]. destruct (F _ Iz) as [Hv _]. cbn [fst] in *.
    split.
    - apply Qcmult_nonneg. apply Qcmult_nonneg; assumption.
      apply q_nonneg. eapply D_lab; eassumption. eapply D_lab; eassumption.
    - split. unfold glue. now rewrite map_length, seq_length.
      apply Forall_forall. intros s Is. apply in_map_iff in Is. destruct Is as (i & <- & Ii). apply in_seq in Ii.
      destruct (side i). apply (D_lab w); [assumption|lia]. apply (D_lab v); [assumption|lia].
  Qed.
  Lemma join_mean f : mean J f =
    lsum (map (fun p => fst p * lsum (map (fun r => fst r * (q (lab (snd p) a) (lab (snd r) b) * f (glue n side (snd p) (snd r)))) D)) D).
  Proof.
    unfold J, join. rewrite mean_flat. apply lsum_map_ext. intros p _. unfold mean. rewrite map_map. cbn [fst snd].
    rewrite <- lsum_map_mult_l. apply lsum_map_ext. intros r _. ring.
  Qed.
  (** the inner sums *)
  Lemma inner_right s : (s < k)%nat -> ma s <> 0 -> mean D (fun z => q s (lab z b)) = 1.
  Proof.
    intros Hs E. rewrite (mean_group D n k b (fun t => q s t)); [|exact D_labels|assumption].
    assert (X : ma s * sumn k (fun t => q s t * mean D (fun y => one_hot_mu (lab y) b t)) = ma s).
    { rewrite <- sumn_mult_l. transitivity (sumn k (fun t => nu s t)); [|now apply Na]. apply sumn_ext. intros t Ht.
      rewrite <- Mb by assumption. rewrite <- (q_back s t Hs Ht). ring. }
    transitivity (/ ma s * (ma s * sumn k (fun t => q s t * mean D (fun y => one_hot_mu (lab y) b t)))).
    field; assumption. rewrite X. field; assumption.
  Qed.
  Lemma inner_left t : (t < k)%nat -> mb t <> 0 -> mean D (fun z => q (lab z a) t) = 1.
  Proof.
    intros Ht E. rewrite (mean_group D n k a (fun s => q s t)); [|exact D_labels|assumption].
    assert (X : mb t * sumn k (fun s => q s t * mean D (fun y => one_hot_mu (lab y) a s)) = mb t).
    { rewrite <- sumn_mult_l. transitivity (sumn k (fun s => nu s t)); [|now apply Nb]. apply sumn_ext. intros s Hs.
      rewrite <- Ma by assumption. rewrite <- (q_back s t Hs Ht). ring. }
    transitivity (/ mb t * (mb t * sumn k (fun s => q s t * mean D (fun y => one_hot_mu (lab y) a s)))).
    field; assumption. rewrite X. field; assumption.
  Qed.
  Lemma join_left f g : (forall y z, f (glue n side y z) = g y) -> mean J f = mean D g.
  Proof.
    intros Hf. rewrite join_mean. unfold mean at 1. apply lsum_map_ext. intros [w y] I. cbn [fst snd].
    rewrite (lsum_map_ext _ (fun r => g y * (fst r * q (lab y a) (lab (snd r) b)))) by (intros r _; rewrite Hf; ring).
    rewrite lsum_map_mult_l. change (w * (g y * mean D (fun z => q (lab y a) (lab z b))) = w * g y).
    pose proof (D_lab w y a I Ha) as Ly.
    destruct (Qc_eq_dec (ma (lab y a)) 0) as [E|E].
    - rewrite (weight_zero D n k a w y (ma (lab y a)) HD I); [ring| |assumption]. now rewrite Ma.
    - rewrite inner_right by assumption. ring.
  Qed.
  Lemma join_right f g : (forall y z, f (glue n side y z) = g z) -> mean J f = mean D g.
  Proof.
    intros Hf. rewrite join_mean.
    transitivity (lsum (map (fun r => fst r * lsum (map (fun p => fst p * (q (lab (snd p) a) (lab (snd r) b) * g (snd r))) D)) D)).
    - transitivity (lsum (map (fun p => lsum (map (fun r => fst p * fst r * (q (lab (snd p) a) (lab (snd r) b) * g (snd r))) D)) D)).
      + apply lsum_map_ext. intros p _. rewrite <- lsum_map_mult_l. apply lsum_map_ext. intros r _. rewrite Hf. ring.
      + rewrite lsum_swap2. apply lsum_map_ext. intros r _. rewrite <- lsum_map_mult_l. apply lsum_map_ext. intros p _. ring.
    - unfold mean. apply lsum_map_ext. intros [w y] I. cbn [fst snd].
      rewrite (lsum_map_ext _ (fun r => g y * (fst r * q (lab (snd r) a) (lab y b)))) by (intros r _; ring).
      rewrite lsum_map_mult_l. change (w * (g y * mean D (fun z => q (lab z a) (lab y b))) = w * g y).
      pose proof (D_lab w y b I Hb) as Ly.
      destruct (Qc_eq_dec (mb (lab y b)) 0) as [E|E].
      + rewrite (weight_zero D n k b w y (mb (lab y b)) HD I); [ring| |assumption]. now rewrite Mb.
      + rewrite inner_left by assumption. ring.
  Qed.
  Lemma join_edge s t : side a = true -> side b = false -> (s < k)%nat -> (t < k)%nat ->
    mean J (fun y => one_hot_mu (lab y) a s * one_hot_mu (lab y) b t) = nu s t.
  Proof.
    intros Sa Sb Hs Ht. rewrite join_mean.
    transitivity (lsum (map (fun p => fst p * (one_hot_mu (lab (snd p)) a s * (q s t * mb t))) D)).
    - apply lsum_map_ext. intros [w y] I. cbn [fst snd]. f_equal.
      transitivity (lsum (map (fun r => one_hot_mu (lab y) a s * q s t * (fst r * one_hot_mu (lab (snd r)) b t)) D)).
      + apply lsum_map_ext. intros [v z] Iz. cbn [fst snd]. unfold one_hot_mu. rewrite !lab_glue by assumption. rewrite Sa, Sb.
        unfold ind. destruct (Nat.eqb_spec s (lab y a)) as [->|]; [|ring]. destruct (Nat.eqb_spec t (lab z b)) as [->|]; ring.
      + rewrite lsum_map_mult_l. rewrite Mb by assumption. unfold mean. ring.
    - rewrite <- q_back by assumption. rewrite Ma by assumption. unfold mean.
      rewrite (lsum_map_ext _ (fun p => (q s t * mb t) * (fst p * one_hot_mu (lab (snd p)) a s))) by (intros; ring).
      rewrite lsum_map_mult_l. ring.
  Qed.
End Join.

Theorem forest_mixture n k edges mu nu :
  graph_edges n edges -> acyclic edges -> local_polytope n k edges mu nu -> exists D, mixture n k edges D mu nu.
Proof.
  intros G. revert nu. induction edges as [|[a b] E IH]; intros nu A L.
  - exists (product_mix k mu n). destruct L as [L0 _ L1 _ _].
    destruct (product_marginals k mu n L0 L1) as [H1 H2].
    split; [now apply product_ok|]. split; [assumption|]. split; [assumption|]. intros e s t He. inversion He.
  - destruct (acyclic_cons a b E A) as [AE NC].
    assert (GE : graph_edges n E) by (inversion G; assumption).
    assert (Gab : (a < n)%nat /\ (b < n)%nat) by (inversion G; assumption). destruct Gab as [Ha Hb].
    destruct L as [L0 Ln L1 Lf Ls].
    destruct (IH GE (fun e s t => nu (S e) s t) AE) as (D & D1 & D2 & D3 & D4).
    { constructor; auto.
      - intros e s t He. apply Ln. cbn. lia.
      - intros e s He Hs. apply (Lf (S e) s); [cbn; lia|assumption].
      - intros e t He Ht. apply (Ls (S e) t); [cbn; lia|assumption]. }
    assert (O1 : (0 < length ((a, b) :: E))%nat) by (cbn; lia).
    pose proof (fun s Hs => D3 a s Ha Hs) as Ma. pose proof (fun s Hs => D3 b s Hb Hs) as Mb.
    pose proof (fun s Hs => Lf 0%nat s O1 Hs) as Na. pose proof (fun s Hs => Ls 0%nat s O1 Hs) as Nb.
    pose proof (fun s t Hs Ht => Ln 0%nat s t O1 Hs Ht) as Nn. cbn [nth fst snd] in Na, Nb.
    set (side := fun i => (comp E i =? comp E a)%nat).
    assert (Sa : side a = true) by apply Nat.eqb_refl.
    assert (Sb : side b = false) by (apply Nat.eqb_neq; congruence).
    set (q := fun s t => nu 0%nat s t / (mu a s * mu b t)).
    set (J := join n side q a b D).
    assert (ML : forall f g, (forall y z, f (glue n side y z) = g y) -> mean J f = mean D g).
    { intros f g. exact (join_left n k a b side D (mu a) (mu b) (nu 0%nat) D1 Ha Hb Ma Mb Na Nb Nn f g). }
    assert (MR : forall f g, (forall y z, f (glue n side y z) = g z) -> mean J f = mean D g).
    { intros f g. exact (join_right n k a b side D (mu a) (mu b) (nu 0%nat) D1 Ha Hb Ma Mb Na Nb Nn f g). }
    exists J. split; [|split; [|split]].
    + exact (join_ok n k a b side D (mu a) (mu b) (nu 0%nat) D1 Ha Hb Na Nb Nn).
    + rewrite (ML _ (fun _ => 1)); auto.
    + intros i s Hi Hs. rewrite (D3 i s Hi Hs). symmetry. destruct (side i) eqn:Si.
      * apply ML. intros y z. unfold one_hot_mu. now rewrite lab_glue, Si by assumption.
      * apply MR. intros y z. unfold one_hot_mu. now rewrite lab_glue, Si by assumption.
    + intros e s t He Hs Ht. destruct e as [|e].
      * symmetry. unfold one_hot_nu. cbn [nth fst snd].
        exact (join_edge n k a b side D (mu a) (mu b) (nu 0%nat) Ha Hb Ma Mb Na Nb Nn s t Sa Sb Hs Ht).
      * cbn [length] in He. assert (He' : (e < length E)%nat) by lia. rewrite (D4 e s t He' Hs Ht). symmetry.
        set (cd := nth e E (0, 0)%nat).
        assert (Icd : In cd E) by (apply nth_In; assumption).
        assert (Hcd : (fst cd < n)%nat /\ (snd cd < n)%nat).
        { unfold graph_edges in GE. rewrite Forall_forall in GE. exact (GE cd Icd). }
        destruct Hcd as [Hc Hd].
        assert (Sc : side (fst cd) = side (snd cd)).
        { unfold side. rewrite (comp_edge E (fst cd) (snd cd)); [reflexivity|]. rewrite <- surjective_pairing. assumption. }
        destruct (side (fst cd)) eqn:Si.
        -- apply ML. intros y z. unfold one_hot_nu. cbn [nth]. fold cd. rewrite !lab_glue by assumption. now rewrite <- Sc, Si.
        -- apply MR. intros y z. unfold one_hot_nu. cbn [nth]. fold cd. rewrite !lab_glue by assumption. now rewrite <- Sc, Si.
Qed.
