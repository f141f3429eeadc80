(** Proofs about genSnakes: the walk on the board. *)
From Coq Require Import ZArith Lia Permutation.
From Verif Require Import Spec.GenSnakesSpec Proofs.Arrays Proofs.HiddenSnakes.
Local Open Scope Z_scope.

Definition add (a b : site) : site := (fst a + fst b, snd a + snd b).
(** [L] has one site more than there are directions *)
Definition chain (L : list site) (dirs : list nat) : Prop :=
  length L = S (length dirs) /\
  forall k a d, nth_error L k = Some a -> nth_error dirs k = Some d ->
    exists s, nth_error lDirectionIncr d = Some s /\ nth_error L (S k) = Some (add a s).

Lemma wrap_in n z : 0 <= z < Z.of_nat n -> wrap n z = Ok (Z.to_nat z).
Proof.
  intro H. unfold wrap. replace ((0 <=? z) && (z <? Z.of_nat n)) with true; [reflexivity|].
  symmetry. apply andb_true_iff. split; [apply Z.leb_le|apply Z.ltb_lt]; lia.
Qed.

Section Board.
Variables (n : nat).
Let ndim := (1 + n + 1 + n + 1)%nat.
Let m := 1 + Z.of_nat n.
(** the coloured sites of the board are those of [lij] *)
Definition board_is (b : board) (lij : list site) : Prop :=
  forall i j, 0 <= i < Z.of_nat ndim -> 0 <= j < Z.of_nat ndim -> (b (Z.to_nat i) (Z.to_nat j) = -1 <-> ~ In (i, j) lij).
Definition near (r : nat) (a : site) : Prop := Z.abs (fst a - m) + Z.abs (snd a - m) <= Z.of_nat r.
Lemma near_in r a : near r a -> (r <= S n)%nat -> 0 <= fst a < Z.of_nat ndim /\ 0 <= snd a < Z.of_nat ndim.
Proof. unfold near, ndim, m. intros. lia. Qed.
Lemma incr_one d s : nth_error lDirectionIncr d = Some s -> Z.abs (fst s) + Z.abs (snd s) = 1.
Proof. do 4 (destruct d as [|d]; [intro E; injection E as <-; reflexivity|]). destruct d; discriminate. Qed.
Lemma near_add r a d s : near r a -> nth_error lDirectionIncr d = Some s -> near (S r) (add a s).
Proof. intros H E. apply incr_one in E. unfold near, add in *. cbn [fst snd]. lia. Qed.

Lemma try_spec b lij r i j dirs : board_is b lij -> near r (i, j) -> (r <= n)%nat -> Forall (fun d => (d < 4)%nat) dirs ->
  (exists d s, try_directions ndim b i j dirs = Ok (Some (d, add (i, j) s)) /\ In d dirs /\
     nth_error lDirectionIncr d = Some s /\ ~ In (add (i, j) s) lij) \/
  (try_directions ndim b i j dirs = Ok None /\
     forall d s, In d dirs -> nth_error lDirectionIncr d = Some s -> In (add (i, j) s) lij).
Proof.
  intros HB HN HR HD. induction dirs as [|d dirs IH]; cbn [try_directions]; [right; split; [reflexivity|intros d s []]|].
  inversion HD as [|? ? H4 HD']; subst. specialize (IH HD').
  assert (E : exists s, nth_error lDirectionIncr d = Some s).
  { destruct (nth_error lDirectionIncr d) as [s|] eqn:E; [eauto|]. apply nth_error_None in E. cbn in E. lia. }
  destruct E as [s E]. unfold index. rewrite E. cbn [bind].
  assert (HN' := near_add r (i, j) d s HN E). destruct (near_in _ _ HN' ltac:(lia)) as [I J].
  unfold board_get. change (i + fst s) with (fst (add (i, j) s)). change (j + snd s) with (snd (add (i, j) s)).
  rewrite !wrap_in by assumption. cbn [bind]. specialize (HB _ _ I J). rewrite <- surjective_pairing in HB.
  destruct (Z.eqb_spec (b (Z.to_nat (fst (add (i, j) s))) (Z.to_nat (snd (add (i, j) s)))) (-1)) as [Q|Q].
  - left. exists d, s. split; [reflexivity|]. split; [left; reflexivity|]. split; [exact E|]. apply HB, Q.
  - assert (Hin : In (add (i, j) s) lij).
    { destruct (in_dec (fun x y : site => ltac:(decide equality; apply Z.eq_dec)) (add (i, j) s) lij) as [I'|I']; [exact I'|].
      exfalso. apply Q, HB, I'. }
    destruct IH as [[d' [s' [A [B [C D]]]]]|[A B]].
    + left. exists d', s'. split; [exact A|]. split; [right; exact B|]. auto.
    + right. split; [exact A|]. intros d' s' [<-|K] E'; [rewrite E in E'; injection E' as <-; exact Hin|eauto].
Qed.

Lemma board_set_ok b lij r i j d : board_is b lij -> near r (i, j) -> (r <= n)%nat ->
  exists b', board_set ndim b i j (Z.of_nat d) = Ok b' /\ board_is b' (lij ++ [(i, j)]).
Proof.
  intros HB HN HR. destruct (near_in _ _ HN ltac:(lia)) as [I J]. cbn [fst snd] in I, J.
  unfold board_set. rewrite !wrap_in by assumption. cbn [bind]. eexists. split; [reflexivity|].
  intros i' j' I' J'. cbn beta.
  destruct (Nat.eqb_spec (Z.to_nat i') (Z.to_nat i)) as [Ei|Ei]; [destruct (Nat.eqb_spec (Z.to_nat j') (Z.to_nat j)) as [Ej|Ej]|]; cbn [andb].
  - assert (i' = i) by lia. assert (j' = j) by lia. subst. split; [lia|]. intro K. exfalso. apply K, in_or_app. right. left. reflexivity.
  - rewrite (HB i' j' I' J'), in_app_iff. cbn [In]. split; [|tauto]. intros K [K'|[K'|[]]]; [tauto|]. injection K' as -> ->. lia.
  - rewrite (HB i' j' I' J'), in_app_iff. cbn [In]. split; [|tauto]. intros K [K'|[K'|[]]]; [tauto|]. injection K' as -> ->. lia.
Qed.

Lemma chain_app L a dirs d s : chain (L ++ [a]) dirs -> nth_error lDirectionIncr d = Some s ->
  chain ((L ++ [a]) ++ [add a s]) (dirs ++ [d]).
Proof.
  intros [HL HC] E. rewrite app_length in HL. cbn [length] in HL. split; [rewrite !app_length; cbn [length]; lia|].
  intros k a' d' Ha Hd.
  assert (Hk : (k < length dirs \/ k = length dirs)%nat).
  { assert (nth_error (dirs ++ [d]) k <> None) by congruence. apply nth_error_Some in H. rewrite app_length in H. cbn in H. lia. }
  destruct Hk as [Hk| ->].
  - rewrite nth_error_app1 in Hd by exact Hk. rewrite nth_error_app1 in Ha by (rewrite app_length; cbn; lia).
    destruct (HC k a' d' Ha Hd) as [s' [E' N]]. exists s'. split; [exact E'|].
    rewrite nth_error_app1 by (rewrite app_length; cbn; lia). exact N.
  - rewrite nth_error_app2, Nat.sub_diag in Hd by lia. injection Hd as <-. exists s. split; [exact E|].
    rewrite nth_error_app1 in Ha by (rewrite app_length; cbn; lia).
    rewrite nth_error_app2 in Ha by lia. replace (length dirs - length L)%nat with 0%nat in Ha by lia. injection Ha as <-.
    rewrite nth_error_app2 by (rewrite app_length; cbn; lia). rewrite app_length. cbn [length].
    replace (S (length dirs) - (length L + 1))%nat with 0%nat by lia. reflexivity.
Qed.

Lemma grow_spec shuffle (HS : shuffles shuffle) rounds : forall b i j k dirs lij ldir,
  (length ldir + rounds = n)%nat -> board_is b lij -> near (length ldir) (i, j) -> NoDup (lij ++ [(i, j)]) ->
  chain (lij ++ [(i, j)]) ldir -> Permutation [0; 1; 2; 3]%nat dirs ->
  exists o k' dirs', grow shuffle ndim rounds b i j k dirs lij ldir = Ok (o, k', dirs') /\ Permutation [0; 1; 2; 3]%nat dirs' /\
    match o with
    | None => True
    | Some (lij', ldir') => exists e, chain (lij' ++ [e]) ldir' /\ NoDup (lij' ++ [e]) /\ length ldir' = n /\
        exists r, (lij' ++ [e] = (lij ++ [(i, j)]) ++ r)%list
    end.
Proof.
  induction rounds as [|rounds IH]; intros b i j k dirs lij ldir HL HB HN HD HC HP; cbn [grow].
  - do 3 eexists. split; [reflexivity|]. split; [exact HP|]. cbn beta iota. exists (i, j). split; [exact HC|]. split; [exact HD|].
    split; [lia|]. exists []. rewrite app_nil_r. reflexivity.
  - assert (HP' : Permutation [0; 1; 2; 3]%nat (shuffle k dirs)) by (rewrite HP; apply HS).
    assert (H4 : Forall (fun d => (d < 4)%nat) (shuffle k dirs)).
    { apply Forall_forall. intros d Hd. apply (Permutation_in _ (Permutation_sym HP')) in Hd. cbn in Hd. lia. }
    destruct (try_spec b lij _ i j (shuffle k dirs) HB HN ltac:(lia) H4) as [[d [s [E [Hd [Es Hf]]]]]|[E _]]; rewrite E; cbn [bind].
    + destruct (board_set_ok b lij _ i j d HB HN ltac:(lia)) as [b' [Eb HB']].
      destruct (add (i, j) s) as [i' j'] eqn:Ea. rewrite Eb. cbn [bind].
      destruct (IH b' i' j' (S k) (shuffle k dirs) (lij ++ [(i, j)]) (ldir ++ [d])) as [o [k' [dirs' [G [P K]]]]].
      * rewrite app_length. cbn [length]. lia.
      * exact HB'.
      * rewrite app_length, Nat.add_1_r. cbn [length]. rewrite <- Ea. exact (near_add _ _ _ _ HN Es).
      * apply (Permutation_NoDup (Permutation_cons_append (lij ++ [(i, j)]) (i', j'))). constructor; [|exact HD].
        rewrite in_app_iff. intros [K|[K|[]]]; [tauto|]. rewrite <- Ea in K. unfold add in K. cbn [fst snd] in K.
        apply incr_one in Es. injection K as K1 K2. lia.
      * rewrite <- Ea. apply chain_app; assumption.
      * exact HP'.
      * exists o, k', dirs'. split; [exact G|]. split; [exact P|]. destruct o as [[lij' ldir']|]; [|exact I].
        destruct K as [e [K1 [K2 [K3 [r K4]]]]]. exists e. split; [exact K1|]. split; [exact K2|]. split; [exact K3|].
        exists ((i', j') :: r). rewrite K4, <- app_assoc. reflexivity.
    + do 3 eexists. split; [reflexivity|]. split; [exact HP'|]. exact I.
Qed.

(** a key of the dictionary with its directions and the site after the last one *)
Definition found (lij : list site) (ldir : list nat) (e : site) : Prop :=
  chain (lij ++ [e]) ldir /\ NoDup (lij ++ [e]) /\ length lij = n /\ length ldir = n /\ nth_error (lij ++ [e]) 0 = Some (m, m).
Lemma grow_start shuffle (HS : shuffles shuffle) k dirs : Permutation [0; 1; 2; 3]%nat dirs ->
  exists o k' dirs', grow shuffle ndim n (fun _ _ => -1) m m k dirs [] [] = Ok (o, k', dirs') /\ Permutation [0; 1; 2; 3]%nat dirs' /\
    match o with None => True | Some (lij, ldir) => exists e, found lij ldir e end.
Proof.
  intro HP. destruct (grow_spec shuffle HS n (fun _ _ => -1) m m k dirs [] []) as [o [k' [dirs' [G [P K]]]]].
  - reflexivity.
  - intros i j _ _. cbn. tauto.
  - unfold near. cbn [fst snd length]. lia.
  - constructor; [intros []|constructor].
  - split; [reflexivity|]. intros [|?] ? ? ? Q; discriminate Q.
  - exact HP.
  - exists o, k', dirs'. split; [exact G|]. split; [exact P|]. destruct o as [[lij ldir]|]; [|exact I].
    destruct K as [e [K1 [K2 [K3 [r K4]]]]]. exists e. split; [exact K1|]. split; [exact K2|].
    destruct K1 as [KL _]. rewrite app_length in KL. cbn [length] in KL. split; [lia|]. split; [exact K3|]. rewrite K4. reflexivity.
Qed.
End Board.
