(** Executions of the structured perceptron. *)
From Coq Require Import ZArith.
From Verif Require Import Proofs.Arrays Proofs.LossProofs Proofs.SubgradientProofs.
From Verif Require Export Spec.PerceptronSpec.

Lemma mean_nil d : is_mean d [] (vzero d).
Proof. split; [apply vzero_length|]. split; [reflexivity|]. intros i. rewrite get1_vzero. cbn [length map lsum]. rewrite ofN_0. ring. Qed.
Lemma mean_snoc d vs v u : is_mean d vs v -> length u = d ->
  is_mean d (vs ++ [u]) (vadd (vscale (1 - 1 / ofN (S (length vs))) v) (vscale (1 / ofN (S (length vs))) u)).
Proof.
  intros [H1 [H2 H3]] Hu. assert (HN : ofN (S (length vs)) <> 0) by (apply ofN_neq0; lia).
  split; [rewrite vadd_length; rewrite !vscale_length; congruence|]. split; [intros E; destruct vs; discriminate E|].
  intros i. rewrite get1_vadd by (rewrite !vscale_length; congruence). rewrite !get1_vscale, app_length, map_app, lsum_app.
  cbn [length map lsum]. rewrite <- (H3 i). replace (length vs + 1)%nat with (S (length vs)) by lia.
  rewrite ofN_S in *. field. exact HN.
Qed.

Lemma mapM_raises {A B} (f : A -> res B) l x : mapM f l = Err x -> exists a, In a l /\ f a = Err x.
Proof.
  induction l as [|a l IH]; cbn [mapM]; [discriminate|]. destruct (f a) as [b|e] eqn:E; cbn [bind].
  - destruct (mapM f l) as [bs|e]; cbn [bind]; [discriminate|]. intros H. destruct (IH H) as [a' [I1 I2]]. exists a'. split; [right; exact I1|exact I2].
  - intros H. injection H as ->. exists a. split; [left; reflexivity|exact E].
Qed.

Section Run.
Context {X Y : Type} (m : smodel X Y) (T : task X Y) (d : nat) (S : list (X * Y)).
Hypothesis HC : computes m T d S.
Hypothesis HI : infers m T d S.

Lemma update_ok lr p yh w : In p S -> t_label T (fst p) yh -> length w = d ->
  exists w', pc_update m lr p yh w = Ok (t_loss T (snd p) yh, w') /\ length w' = d /\
    (t_loss T (snd p) yh = 0 -> w' = w) /\
    (t_loss T (snd p) yh <> 0 -> w' = vadd w (vscale lr (vsub (t_feat T (fst p) (snd p)) (t_feat T (fst p) yh)))).
Proof.
  clear HI. intros Hp HL Hw. destruct (HC p Hp) as [A1 [A2 A3]]. destruct (A3 _ A1) as [B1 [_ [B2 _]]]. destruct (A3 _ HL) as [C1 [_ [C2 C3]]].
  unfold pc_update. rewrite C3. cbn [bind]. destruct (Qceqb_spec (t_loss T (snd p) yh) 0) as [E|E].
  - exists w. split; [reflexivity|]. split; [exact Hw|]. split; [reflexivity|intros F; contradiction].
  - rewrite B2. cbn [bind]. rewrite C2. cbn [bind]. unfold np_vsub. rewrite B1, C1, Nat.eqb_refl. cbn [bind].
    unfold np_vadd. rewrite vscale_length, vsub_length, Hw, B1, Nat.eqb_refl by congruence. cbn [bind].
    eexists. split; [reflexivity|]. split; [rewrite vadd_length; [exact Hw|]; rewrite vscale_length, vsub_length; congruence|].
    split; [intros F; contradiction|reflexivity].
Qed.

(** the averaging part of a state *)
Definition mean_state (o : list (list Qc)) (st : pc_state) : Prop :=
  is_mean d o (pc_bar st) /\ pc_obs st = length o /\ length (pc_w st) = d.
Lemma observe_state (on : bool) o st : mean_state o st ->
  mean_state (o ++ if on then [pc_w st] else []) (pc_observe on st) /\
  pc_w (pc_observe on st) = pc_w st /\ pc_losses (pc_observe on st) = pc_losses st.
Proof.
  clear HC HI. intros [M1 [M2 M3]]. destruct on; cbn [pc_observe pc_w pc_losses].
  - split; [|auto]. split; [|split]; cbn [pc_bar pc_obs pc_w]; auto.
    + rewrite M2. apply mean_snoc; auto.
    + rewrite app_length, M2. cbn. lia.
  - rewrite app_nil_r. unfold mean_state. auto.
Qed.

Lemma online_run lr (on : bool) w0 : forall S' st o st' e, (forall p, In p S' -> In p S) -> mean_state o st ->
  pc_online m lr on S' st = (st', e) ->
  exists V, presents m T false lr w0 (pc_w st) V /\ pc_w st' = last (map v_after V) (pc_w st) /\
    pc_losses st' = pc_losses st + lsum (map (v_loss T) V) /\
    mean_state (o ++ if on then map v_after V else []) st' /\
    match e with
    | None => map v_sample V = S'
    | Some x => exists p r, S' = map v_sample V ++ p :: r /\ sm_inference m (fst p) (pc_w st') = Err x
    end.
Proof.
  induction S' as [|p S' IH]; intros st o st' e HS M E; cbn [pc_online] in E.
  - injection E as <- <-. exists []. cbn. split; [exact I|]. split; [reflexivity|]. split; [ring|]. split; [|reflexivity].
    destruct on; rewrite app_nil_r; exact M.
  - destruct (sm_inference m (fst p) (pc_w st)) as [yh|x] eqn:EI; cbn [bind] in E.
    + destruct M as [M1 [M2 M3]].
      assert (Hp : In p S) by (apply HS; left; reflexivity).
      destruct (update_ok lr p yh (pc_w st) Hp (HI _ _ _ Hp M3 EI) M3) as [w' [U1 [U2 [U3 U4]]]]. rewrite U1 in E.
      assert (M' : mean_state o (PCState w' (pc_bar st) (pc_obs st) (pc_losses st + t_loss T (snd p) yh))) by (split; [exact M1|split; [exact M2|exact U2]]).
      destruct (observe_state on _ _ M') as [O1 [O2 O3]]. cbn [pc_w pc_losses] in O1, O2, O3.
      destruct (IH _ _ _ _ (fun q Hq => HS q (or_intror Hq)) O1 E) as [V [V1 [V2 [V3 [V4 V5]]]]].
      rewrite O2 in V1, V2. rewrite O3 in V3.
      exists (Visit p yh w' :: V). split; [cbn [presents v_sample v_pred v_after]; auto|].
      split; [cbn [map v_after]; rewrite V2; symmetry; apply last_cons|].
      split; [rewrite V3; cbn [map lsum v_loss v_sample v_pred]; unfold v_loss; cbn [v_sample v_pred]; ring|].
      split.
      * replace (o ++ (if on then map v_after (Visit p yh w' :: V) else [])) with ((o ++ if on then [w'] else []) ++ if on then map v_after V else []); [exact V4|].
        destruct on; cbn [map v_after]; rewrite <- app_assoc; reflexivity.
      * destruct e as [x|]; cbn [map v_sample]; [|rewrite V5; reflexivity]. destruct V5 as [q [r [R1 R2]]]. exists q, r. rewrite R1. auto.
    + injection E as <- <-. exists []. cbn. split; [exact I|]. split; [reflexivity|]. split; [ring|].
      split; [destruct on; rewrite app_nil_r; exact M|]. exists p, S'. auto.
Qed.

Lemma updates_run lr w0 : forall S' Yh st o, (forall p, In p S' -> In p S) -> length w0 = d ->
  mapM (fun p => sm_inference m (fst p) w0) S' = Ok Yh -> mean_state o st ->
  exists st' V, pc_updates m lr (combine S' Yh) st = (st', None) /\ presents m T true lr w0 (pc_w st) V /\
    pc_w st' = last (map v_after V) (pc_w st) /\ pc_losses st' = pc_losses st + lsum (map (v_loss T) V) /\
    mean_state o st' /\ map v_sample V = S'.
Proof.
  induction S' as [|p S' IH]; intros Yh st o HS HW0 E M; cbn [mapM] in E.
  - injection E as <-. exists st, []. cbn. split; [reflexivity|]. split; [exact I|]. split; [reflexivity|]. split; [ring|]. auto.
  - apply bind_ok in E. destruct E as [yh [E1 E2]]. apply bind_ok in E2. destruct E2 as [ys [E2 E3]]. injection E3 as <-.
    destruct M as [M1 [M2 M3]]. assert (Hp : In p S) by (apply HS; left; reflexivity).
    destruct (update_ok lr p yh (pc_w st) Hp (HI _ _ _ Hp HW0 E1) M3) as [w' [U1 [U2 [U3 U4]]]].
    assert (M' : mean_state o (PCState w' (pc_bar st) (pc_obs st) (pc_losses st + t_loss T (snd p) yh))) by (split; [exact M1|split; [exact M2|exact U2]]).
    destruct (IH ys _ o (fun q Hq => HS q (or_intror Hq)) HW0 E2 M') as [st' [V [V1 [V2 [V3 [V4 [V5 V6]]]]]]]. cbn [pc_w pc_losses] in V2, V3, V4.
    exists st', (Visit p yh w' :: V). cbn [combine pc_updates]. rewrite U1. split; [exact V1|].
    split; [cbn [presents v_sample v_pred v_after]; auto|]. split; [cbn [map v_after]; rewrite V3; symmetry; apply last_cons|].
    split; [rewrite V4; cbn [map lsum]; unfold v_loss; cbn [v_sample v_pred]; ring|]. split; [exact V5|]. cbn [map v_sample]. rewrite V6. reflexivity.
Qed.

(** one epoch *)
Lemma epoch_run (batch : bool) lr (on : bool) st o st' e : mean_state o st ->
  (if batch then pc_batch_epoch m lr on S st else pc_online m lr on S st) = (st', e) ->
  exists V, presents m T batch lr (pc_w st) (pc_w st) V /\ pc_w st' = finish (pc_w st, V) /\
    pc_losses st' = pc_losses st + lsum (map (v_loss T) V) /\
    mean_state (o ++ if on then seen batch (match e with None => true | Some _ => false end) (pc_w st, V) else []) st' /\
    match e with
    | None => map v_sample V = S
    | Some x => if batch then V = [] /\ exists p, In p S /\ sm_inference m (fst p) (pc_w st) = Err x
                else exists p r, S = map v_sample V ++ p :: r /\ sm_inference m (fst p) (pc_w st') = Err x
    end.
Proof.
  intros M E. destruct batch.
  - unfold pc_batch_epoch in E. destruct (mapM _ S) as [Yh|x] eqn:EM.
    + destruct (updates_run lr (pc_w st) S Yh st o (fun p H => H) (proj2 (proj2 M)) EM M) as [s' [V [V1 [V2 [V3 [V4 [V5 V6]]]]]]].
      rewrite V1 in E. cbn [fst snd] in E. injection E as <- <-. destruct (observe_state on _ _ V5) as [O1 [O2 O3]].
      exists V. split; [exact V2|]. split; [rewrite O2; exact V3|]. split; [rewrite O3; exact V4|]. split; [|exact V6].
      unfold seen, finish. cbn [fst snd]. rewrite <- V3. exact O1.
    + injection E as <- <-. exists []. split; [exact I|]. split; [reflexivity|]. split; [cbn; ring|].
      split; [unfold seen; destruct on; rewrite app_nil_r; exact M|]. split; [reflexivity|].
      apply mapM_raises in EM. destruct EM as [p [A B]]. exists p. auto.
  - destruct (online_run lr on (pc_w st) S st o st' e (fun p H => H) M E) as [V [V1 [V2 [V3 [V4 V5]]]]].
    exists V. split; [exact V1|]. split; [exact V2|]. split; [exact V3|]. split; [exact V4|exact V5].
Qed.
End Run.
