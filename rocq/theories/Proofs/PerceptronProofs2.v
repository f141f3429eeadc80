(** Whole fits of the structured perceptron. *)
From Coq Require Import ZArith.
From Verif Require Import Proofs.Arrays Proofs.LossProofs Proofs.SubgradientProofs.
From Verif Require Export Proofs.PerceptronProofs.

Lemma rate_ok prm it : rates_ok prm -> pc_rate prm it = Ok (pc_lr prm it).
Proof.
  intros H. unfold pc_rate, pc_lr. destruct (Z.leb_spec 0 (pc_decay prm)) as [L|L]; [reflexivity|].
  destruct H as [H|H]; [lia|]. destruct (Qceqb_spec (ofN it + pc_t0 prm) 0) as [E|E]; [|reflexivity].
  exfalso. pose proof (ofN_nonneg it). assert (0 < ofN it + pc_t0 prm) by qclra. rewrite E in H1. discriminate H1.
Qed.

Definition resets (a : pc_average) : bool := match a with FromEpoch k => (k =? -1)%Z | _ => false end.
Section Obs.
Context {X Y : Type} (a : pc_average) (batch : bool).
Definition obs_step (it : nat) (complete : bool) (e : pc_epoch X Y) (o : list (list Qc)) : list (list Qc) :=
  (if resets a then [] else o) ++ (if pc_on a it then seen batch complete e else []).
Fixpoint obs_acc (it : nat) (o : list (list Qc)) (Es : list (pc_epoch X Y)) (P : option (pc_epoch X Y)) : list (list Qc) :=
  match Es with
  | [] => match P with None => o | Some e => obs_step it false e o end
  | e :: r => obs_acc (S it) (obs_step it true e o) r P
  end.
Lemma obs_last : a = FromEpoch (-1) -> forall Es it o P,
  obs_acc it o Es P = match P with Some e => seen batch false e
                      | None => match rev Es with e :: _ => seen batch true e | [] => o end end.
Proof.
  intros HA. assert (HR : resets a = true) by (rewrite HA; reflexivity).
  assert (HO : forall it, pc_on a it = true).
  { intros it. rewrite HA. unfold pc_on. cbn [pc_averaging pc_from andb]. apply Z.leb_le. lia. }
  induction Es as [|e Es IH]; intros it o P; cbn [obs_acc].
  - destruct P; [|reflexivity]. unfold obs_step. rewrite HR, HO. reflexivity.
  - rewrite IH. destruct P; [reflexivity|]. cbn [rev]. destruct (rev Es) as [|e' r]; [|reflexivity]. cbn [app].
    unfold obs_step. rewrite HR, HO. reflexivity.
Qed.
Lemma obs_from k : pc_averaging a = true -> pc_from a = k -> (0 <= k)%Z -> forall Es it o P,
  obs_acc it o Es P = o ++ concat (map (seen batch true) (skipn (Z.to_nat (k - Z.of_nat it)) Es)) ++
    match P with Some e => if (k <=? Z.of_nat (it + length Es))%Z then seen batch false e else [] | None => [] end.
Proof.
  intros HA HK K0. assert (HR : resets a = false).
  { destruct a as [| |z]; [reflexivity|reflexivity|]. cbn in *. apply Z.eqb_neq. lia. }
  assert (HO : forall it, pc_on a it = (k <=? Z.of_nat it)%Z) by (intros it; unfold pc_on; rewrite HA, HK; reflexivity).
  induction Es as [|e Es IH]; intros it o P; cbn [obs_acc].
  - rewrite skipn_nil. cbn [map concat app length]. rewrite Nat.add_0_r. destruct P as [e|]; [|rewrite app_nil_r; reflexivity].
    unfold obs_step. rewrite HR, HO. reflexivity.
  - rewrite IH. unfold obs_step. rewrite HR, HO. cbn [length]. replace (S it + length Es)%nat with (it + S (length Es))%nat by lia.
    destruct (Z.leb_spec k (Z.of_nat it)) as [L|L].
    + replace (Z.to_nat (k - Z.of_nat it)) with O by lia. replace (Z.to_nat (k - Z.of_nat (S it))) with O by lia.
      cbn [skipn map concat]. rewrite <- !app_assoc. reflexivity.
    + replace (Z.to_nat (k - Z.of_nat it)) with (S (Z.to_nat (k - Z.of_nat (S it)))) by lia. cbn [skipn]. rewrite app_nil_r. reflexivity.
Qed.
Lemma obs_observed : pc_averaging a = true -> (-1 <= pc_from a)%Z -> forall Es P, obs_acc 0 [] Es P = observed batch (pc_from a) Es P.
Proof.
  intros HA HK Es P. unfold observed. destruct (Z.eqb_spec (pc_from a) (-1)) as [E|E].
  - rewrite obs_last; [reflexivity|]. destruct a as [| |z]; cbn in E; try discriminate E. rewrite E. reflexivity.
  - rewrite (obs_from (pc_from a)) by (auto; lia). cbn [app]. rewrite Z.sub_0_r. reflexivity.
Qed.
End Obs.

Section Fit.
Context {X Y : Type} (m : smodel X Y) (T : task X Y) (d : nat) (S : list (X * Y)).
Hypothesis HC : computes m T d S.
Hypothesis HI : infers m T d S.

Lemma begin_state a o st : mean_state d o st -> mean_state d (if resets a then [] else o) (pc_begin a st) /\
  pc_w (pc_begin a st) = pc_w st /\ pc_losses (pc_begin a st) = 0.
Proof.
  clear HC HI. intros [M1 [M2 M3]]. unfold pc_begin. destruct a as [| |k]; cbn [resets].
  1, 2: split; [split; [exact M1|split; [exact M2|exact M3]]|auto].
  destruct (k =? -1)%Z; cbn [pc_w pc_losses]; (split; [|auto]); (split; [|split]); cbn [pc_bar pc_obs pc_w]; auto.
  rewrite (proj1 M1). apply mean_nil.
Qed.

Lemma entry_zero ml e v : v = epoch_loss T e ->
  (match (if Qceqb ml 0 then None else Some (v / ml)) with Some v => Qceqb v 0 | None => false end) = true <-> zero_entry (entry T ml e).
Proof.
  clear HC HI. intros ->. unfold entry. destruct (Qceqb ml 0); cbn [zero_entry]; [split; [discriminate|contradiction]|].
  destruct (Qceqb_spec (epoch_loss T e / ml) 0); split; auto; discriminate.
Qed.

Lemma finish_all_cons w e (Es : list (pc_epoch X Y)) : finish_all w (e :: Es) = finish_all (finish e) Es.
Proof. unfold finish_all. cbn [map]. apply last_cons. Qed.
Lemma loop_run prm ml : rates_ok prm -> forall k it st curve o st' curve' x, mean_state d o st ->
  pc_loop prm m S ml k it st curve = (st', curve', x) ->
  exists Es P, epochs prm m T S it (pc_w st) Es /\ (length Es <= k)%nat /\ curve' = curve ++ map (entry T ml) Es /\
    mean_state d (obs_acc (pc_avg prm) (pc_batch prm) it o Es P) st' /\
    pc_w st' = match P with Some e => finish e | None => finish_all (pc_w st) Es end /\ goes_on T ml (removelast Es) /\
    match x with
    | None => P = None /\ ends T k Es ml
    | Some x => exists e, P = Some e /\ broken prm m T S (it + length Es) (finish_all (pc_w st) Es) e x /\ (length Es < k)%nat /\ goes_on T ml Es
    end.
Proof.
  intros HR. induction k as [|k IH]; intros it st curve o st' curve' x M E.
  - cbn [pc_loop] in E. injection E as <- <- <-. exists [], None. cbn [map obs_acc epochs length removelast]. rewrite app_nil_r.
    split; [exact I|]. split; [lia|]. split; [reflexivity|]. split; [exact M|]. split; [reflexivity|]. split; [constructor|]. split; [reflexivity|left; reflexivity].
  - cbn [pc_loop] in E. rewrite (rate_ok _ _ HR) in E. destruct (begin_state (pc_avg prm) o st M) as [B1 [B2 B3]].
    set (st0 := pc_begin (pc_avg prm) st) in *. set (on := pc_on (pc_avg prm) it) in *.
    destruct (if pc_batch prm then pc_batch_epoch m (pc_lr prm it) on S st0 else pc_online m (pc_lr prm it) on S st0) as [st1 x1] eqn:EE.
    destruct (epoch_run m T d S HC HI _ _ _ _ _ _ _ B1 EE) as [V [V1 [V2 [V3 [V4 V5]]]]]. cbn [fst snd] in E. rewrite B2 in V1, V2, V4, V5. rewrite B3 in V3.
    destruct x1 as [x1|].
    + injection E as <- <- <-. exists [], (Some (pc_w st, V)). cbn [map obs_acc epochs length removelast]. rewrite app_nil_r, Nat.add_0_r.
      split; [exact I|]. split; [lia|]. split; [reflexivity|]. split; [exact V4|]. split; [exact V2|]. split; [constructor|].
      exists (pc_w st, V). split; [reflexivity|]. split; [|split; [lia|constructor]].
      split; [reflexivity|]. split; [exact V1|]. destruct (pc_batch prm); [exact V5|]. rewrite <- V2. exact V5.
    + assert (EV : pc_losses st1 = epoch_loss T (pc_w st, V)) by (rewrite V3; unfold epoch_loss; cbn [snd]; ring).
      pose proof (entry_zero ml (pc_w st, V) _ EV) as Z.
      assert (EN : (if Qceqb ml 0 then None else Some (pc_losses st1 / ml)) = entry T ml (pc_w st, V)) by (unfold entry; rewrite EV; reflexivity).
      destruct (match (if Qceqb ml 0 then None else Some (pc_losses st1 / ml)) with Some v => Qceqb v 0 | None => false end).
      * injection E as <- <- <-. exists [(pc_w st, V)], None. cbn [map obs_acc epochs length removelast].
        split; [split; [reflexivity|split; [exact V5|split; [exact V1|exact I]]]|]. split; [lia|]. split; [rewrite EN; reflexivity|].
        split; [exact V4|]. split; [exact V2|]. split; [constructor|]. split; [reflexivity|]. right. exists [], (pc_w st, V). split; [reflexivity|apply Z; reflexivity].
      * assert (NZ : ~ zero_entry (entry T ml (pc_w st, V))) by (intros F; apply Z in F; discriminate F).
        destruct (IH _ _ _ _ _ _ _ V4 E) as [Es [P [A1 [A2 [A3 [A4 [A5 [A6 A7]]]]]]]]. rewrite V2 in A1, A5, A7.
        exists ((pc_w st, V) :: Es), P. split; [split; [reflexivity|split; [exact V5|split; [exact V1|exact A1]]]|]. split; [cbn [length]; lia|].
        split; [rewrite A3, EN, <- app_assoc; reflexivity|]. split; [exact A4|]. split; [rewrite finish_all_cons; exact A5|].
        split; [destruct Es; [constructor|constructor; [exact NZ|exact A6]]|].
        destruct x as [x|].
        -- destruct A7 as [e [C1 [C2 [C3 C4]]]]. exists e. split; [exact C1|]. split; [|split; [cbn [length]; lia|constructor; [exact NZ|exact C4]]].
           rewrite finish_all_cons. cbn [length]. replace (it + Datatypes.S (length Es))%nat with (Datatypes.S it + length Es)%nat by lia. exact C2.
        -- destruct A7 as [C1 C2]. split; [exact C1|]. destruct C2 as [C2|[Es' [e [C2 C3]]]]; [left; cbn [length]; lia|].
           right. exists ((pc_w st, V) :: Es'), e. rewrite C2. auto.
Qed.

Lemma fit_run prm mloss old mls L x : sm_size m = d -> rates_ok prm -> average_ok prm ->
  mapM (fun p => mloss (snd p)) S = Ok mls -> pc_fit prm m mloss old S = (L, x) ->
  exists Es P raised, epochs prm m T S 0 (vzero d) Es /\ (length Es <= pc_max_iter prm)%nat /\
    pl_curve L = Some (map (entry T (lsum mls)) Es) /\ exposed d (pc_batch prm) (pc_avg prm) Es P (pl_w L) /\
    Forall (fun e => ~ zero_entry (entry T (lsum mls) e)) (removelast Es) /\ x = leaving raised /\
    match raised with
    | None => P = None /\ ends T (pc_max_iter prm) Es (lsum mls)
    | Some x => exists e, P = Some e /\ broken prm m T S (length Es) (finish_all (vzero d) Es) e x /\ (length Es < pc_max_iter prm)%nat /\
                  goes_on T (lsum mls) Es
    end.
Proof.
  intros HS HR HA HM E. unfold pc_fit in E. rewrite HM in E.
  assert (TL : (match pc_avg prm with FromEpoch k => (k <? -1)%Z | _ => false end) = false).
  { unfold average_ok in HA. destruct (pc_avg prm); [reflexivity|reflexivity|]. cbn in HA. apply Z.ltb_ge. exact HA. }
  rewrite TL in E. set (a := match pc_avg prm with AllEpochs => FromEpoch 0 | a => a end) in E.
  set (prm' := PCParams (pc_max_iter prm) (pc_batch prm) (pc_decay prm) (pc_t0 prm) a) in E.
  destruct (pc_loop prm' m S (lsum mls) (pc_max_iter prm) 0 (PCState (vzero (sm_size m)) (vzero (sm_size m)) 0 0) []) as [[st curve] raised] eqn:EL.
  assert (M0 : mean_state d [] (PCState (vzero (sm_size m)) (vzero (sm_size m)) 0 0)).
  { rewrite HS. split; [apply mean_nil|]. split; [reflexivity|apply vzero_length]. }
  assert (HR' : rates_ok prm') by exact HR.
  destruct (loop_run prm' (lsum mls) HR' _ _ _ _ _ _ _ _ M0 EL) as [Es [P [A1 [A2 [A3 [A4 [A5 [A6 A7]]]]]]]].
  cbn [pc_w app] in *. rewrite HS in A1, A5, A7.
  assert (EP : epochs prm m T S 0 (vzero d) Es).
  { clear -A1. revert A1. generalize 0%nat (vzero d). induction Es as [|e Es IH]; intros it w H; [exact I|].
    destruct H as [H1 [H2 [H3 H4]]]. split; [exact H1|]. split; [exact H2|]. split; [exact H3|]. apply IH. exact H4. }
  injection E as <- <-. exists Es, P, raised. split; [exact EP|]. split; [exact A2|]. split; [cbn [pl_curve]; rewrite A3; reflexivity|].
  split; [|split; [exact A6|split; [reflexivity|]]].
  - cbn [pl_w]. unfold exposed. unfold average_ok in HA. destruct (pc_avg prm) as [| |k] eqn:EA; cbn [pc_first] in *; unfold a; cbn [pc_averaging].
    + rewrite A5. destruct P; reflexivity.
    + cbn [pc_avg prm'] in A4. unfold a in A4. rewrite (obs_observed (FromEpoch 0) (pc_batch prm)) in A4 by (cbn; auto; lia). exact (proj1 A4).
    + cbn [pc_avg prm'] in A4. unfold a in A4. rewrite (obs_observed (FromEpoch k) (pc_batch prm)) in A4 by (cbn; auto; lia). exact (proj1 A4).
  - destruct raised as [x|]; [|exact A7]. destruct A7 as [e [C1 [C2 [C3 C4]]]]. exists e. split; [exact C1|]. split; [exact C2|]. split; [exact C3|exact C4].
Qed.
End Fit.
