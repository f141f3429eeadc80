(** Proofs about genSnakes: the statements about whole runs. *)
From Coq Require Import ZArith Lia Permutation.
From Verif Require Import Spec.TwoTypesSpec Spec.GenSnakesSpec Proofs.Arrays Proofs.Snakes Proofs.HiddenSnakes Proofs.GenSnakes Proofs.GenSnakes2 Proofs.GenSnakes3 Proofs.GenSnakes4.

Lemma gen_result shuffle n fuel N used r : shuffles shuffle -> (0 < n)%nat -> genSnakes shuffle fuel N used n = Some r ->
  exists out used', r = Ok (out, used') /\ length out = N /\
    Forall (fun xy => (exists l, shows n (fst xy) (snd xy) l) /\ (a_h (fst xy) + a_w (fst xy) <= n + 5)%nat) out.
Proof.
  intros HS Hn E. pose proof (gen_spec shuffle n fuel N used HS Hn) as Q. rewrite E in Q. destruct r as [[out used']|]; [|destruct Q].
  destruct Q as [keys [_ [L [F _]]]]. exists out, used'. split; [reflexivity|]. clear - L F. revert N L.
  induction F as [|key xy keys out M F IH]; intros N L; [split; [exact L|constructor]|]. destruct N as [|N]; [discriminate L|].
  destruct (IH N ltac:(cbn in L; lia)) as [L' F']. split; [cbn; lia|]. constructor; [|exact F'].
  destruct M as [ldir [e [imin [jmin [_ [S [_ B]]]]]]]. split; [eauto|exact B].
Qed.
Lemma shows_labels n x y l : (n < 256)%nat -> shows n x y l -> snake_labels n y.
Proof.
  intros Hn [_ [_ [Eh [Ew [L [D [[hot [_ [_ [_ [_ [Hh [Hw [C _]]]]]]]] [_ [HL H0]]]]]]]]] s Hs.
  destruct (nth_error l (s - 1)) as [a|] eqn:Ea; [|apply nth_error_None in Ea; lia].
  assert (Ca := proj2 (C a) (nth_error_In _ _ Ea)). destruct Ca as [C1 [C2 _]].
  exists (fst a), (snd a). split; [lia|]. split; [lia|]. split.
  - rewrite (HL _ _ Ea). replace (S (s - 1)) with s by lia. apply Nat.mod_small. lia.
  - intros i j Hi Hj E. destruct (in_dec (fun a b : nat * nat => ltac:(decide equality; apply Nat.eq_dec)) (i, j) l) as [I|I].
    + apply In_nth_error in I. destruct I as [k Hk]. pose proof (HL _ _ Hk) as Q. cbn [fst snd] in Q. rewrite E in Q.
      assert (k < length l)%nat by (apply nth_error_Some; congruence). rewrite Nat.mod_small in Q by lia.
      replace (s - 1)%nat with k in Ea by lia. rewrite Hk in Ea. injection Ea as <-. auto.
    + rewrite H0 in E by (assumption || lia). lia.
Qed.
Lemma shows_overflow n x y l : (256 <= n)%nat -> shows n x y l ->
  ~ snake_labels n y /\ exists a, nth_error l 255 = Some a /\ lget y (fst a) (snd a) = 0%nat.
Proof.
  intros Hn [_ [_ [Eh [Ew [L [D [_ [_ [HL H0]]]]]]]]]. split.
  - intro K. destruct (K 256%nat ltac:(lia)) as [i [j [Hi [Hj [E _]]]]].
    destruct (in_dec (fun a b : nat * nat => ltac:(decide equality; apply Nat.eq_dec)) (i, j) l) as [I|I].
    + apply In_nth_error in I. destruct I as [k Hk]. pose proof (HL _ _ Hk) as Q. cbn [fst snd] in Q. rewrite E in Q.
      pose proof (Nat.mod_upper_bound (S k) 256 ltac:(lia)). lia.
    + rewrite H0 in E by (assumption || lia). lia.
  - destruct (nth_error l 255) as [a|] eqn:Ea; [|apply nth_error_None in Ea; lia]. exists a. split; [reflexivity|]. rewrite (HL _ _ Ea). reflexivity.
Qed.
Lemma shows_present n x y l : shows n x y l -> exists hot, one_hot_colors x = Ok hot /\ snake_picture false n x hot /\ isSnakePresent hot n = Ok true.
Proof.
  intros [_ [_ [_ [_ [L [D [[hot [E [O [F [A [_ [_ [C _]]]]]]]] _]]]]]]]. exists hot. split; [exact E|]. split.
  - split; [exact E|]. split; [exact O|]. split; [exact F|]. exists l. split; [exact D|]. split; [exact L|]. intro a. symmetry. apply C.
  - destruct (present_spec hot O F n) as [b [E' H]]. rewrite E'. f_equal. apply H. left. exists l. auto.
Qed.
Lemma gen_unique s1 s2 n f1 f2 N1 N2 used out1 used1 used1' out2 used2 : shuffles s1 -> shuffles s2 -> (0 < n)%nat ->
  genSnakes s1 f1 N1 used n = Some (Ok (out1, used1)) -> incl used1 used1' ->
  genSnakes s2 f2 N2 used1' n = Some (Ok (out2, used2)) ->
  ForallOrdPairs (fun a b => ~ same_picture (fst a) (fst b)) (out1 ++ out2).
Proof.
  intros H1 H2 Hn E1 HI E2. pose proof (gen_spec s1 n f1 N1 used H1 Hn) as Q1. rewrite E1 in Q1. destruct Q1 as [k1 [-> [_ [F1 [D1 _]]]]].
  pose proof (gen_spec s2 n f2 N2 used1' H2 Hn) as Q2. rewrite E2 in Q2. destruct Q2 as [k2 [_ [_ [F2 [D2 U2]]]]].
  apply (made_pairs n (k1 ++ k2) Hn); [apply Forall2_app; assumption|]. clear - D1 D2 U2 HI.
  assert (X : forall k, In k k1 -> ~ In k k2).
  { intros k K K'. apply (U2 k K'), HI, in_or_app. right. exact K. }
  clear HI U2. induction D1 as [|a l N D IH]; [exact D2|]. cbn [app]. constructor.
  - intro K. apply in_app_or in K. destruct K as [K|K]; [exact (N K)|]. exact (X a (or_introl eq_refl) K).
  - apply IH. intros k K. apply X. right. exact K.
Qed.
Lemma gen_never shuffle n fuel N used : shuffles shuffle -> (0 < n)%nat -> (4 ^ (n - 1) < N)%nat -> genSnakes shuffle fuel N used n = None.
Proof.
  intros HS Hn HN. destruct (genSnakes shuffle fuel N used n) as [r|] eqn:E; [|reflexivity]. exfalso.
  destruct (gen_result shuffle n fuel N used r HS Hn E) as [out [used' [-> _]]].
  pose proof (gen_few shuffle n fuel N used out used' HS Hn E). lia.
Qed.
Lemma gen_mono shuffle n N used r fuel fuel' : (fuel <= fuel')%nat -> genSnakes shuffle fuel N used n = Some r -> genSnakes shuffle fuel' N used n = Some r.
Proof.
  intro H. assert (O : forall used k dirs r, one_snake shuffle fuel n used k dirs = Some r -> one_snake shuffle fuel' n used k dirs = Some r).
  { clear - H. revert fuel' H. induction fuel as [|fuel IH]; intros fuel' H used k dirs r E; [discriminate E|].
    destruct fuel' as [|fuel']; [lia|]. cbn [one_snake] in *. destruct (attempt shuffle n used k dirs) as [[[[[key xy]|] k'] dirs']|]; try exact E.
    apply IH; [lia|exact E]. }
  assert (G : forall N used k dirs out r, gen_loop shuffle fuel N n used k dirs out = Some r -> gen_loop shuffle fuel' N n used k dirs out = Some r).
  { clear r N used. induction N as [|N IH]; intros used k dirs out r E; cbn [gen_loop] in *; [exact E|].
    destruct (one_snake shuffle fuel n used k dirs) as [o|] eqn:Eo; [|discriminate E]. rewrite (O _ _ _ _ Eo).
    destruct o as [[[[key xy] k'] dirs']|]; [|exact E]. apply IH, E. }
  apply G.
Qed.
