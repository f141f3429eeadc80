From Coq Require Import ZArith Lia.
From Verif Require Import Spec.AlikeSpec Model.NSlack Model.FrankWolfe Model.Subgradient Model.Perceptron.

Lemma combine_pairs {A B} (l : list (A * B)) : combine (map fst l) (map snd l) = l.
Proof. induction l as [|[a c] l IH]; [reflexivity|]. cbn. rewrite IH. reflexivity. Qed.
Lemma Forall2_slice {A B} (R : A -> B -> Prop) i j l r : Forall2 R l r -> Forall2 R (slice i j l) (slice i j r).
Proof.
  unfold slice. intro H. revert i j.
  assert (HS : forall n l r, Forall2 R l r -> Forall2 R (skipn n l) (skipn n r)).
  { induction n as [|n IH]; intros l' r' H'; [exact H'|]. destruct H'; cbn; [constructor|auto]. }
  assert (HF : forall n l r, Forall2 R l r -> Forall2 R (firstn n l) (firstn n r)).
  { induction n as [|n IH]; intros l' r' H'; [constructor|]. destruct H'; cbn; constructor; auto. }
  intros i j. auto.
Qed.
Lemma Forall2_length_eq {A B} (R : A -> B -> Prop) l r : Forall2 R l r -> length l = length r.
Proof. induction 1; cbn; congruence. Qed.
Lemma mapM_Forall2_eq {A B C} (R : A -> B -> Prop) (f : A -> res C) (h : B -> res C) l r :
  (forall a c, R a c -> f a = h c) -> Forall2 R l r -> mapM f l = mapM h r.
Proof. intros H F. induction F as [|a c l r HR _ IH]; [reflexivity|]. cbn. rewrite (H _ _ HR), IH. reflexivity. Qed.

Section Alike.
Context {X X' Y : Type}.
Variables (m : smodel X Y) (m' : smodel X' Y).
Hypothesis HS : alike_sizes m m'.
Notation R := (alike m m').

(** what inference returns for a sample can be used in both models *)
Definition usable (p : X * Y) (p' : X' * Y) (h : Y) : Prop :=
  sm_joint m (fst p) h None = sm_joint m' (fst p') h None /\
  sm_joint m (fst p) h (Some (snd p)) = sm_joint m' (fst p') h (Some (snd p)) /\
  sm_full_loss m (snd p) h = sm_full_loss m' (snd p) h /\
  sm_loss m (snd p) h = sm_loss m' (snd p) h.

Lemma usable_truth p p' : R p p' -> usable p p' (snd p).
Proof.
  intros [E (ok & O & J & _ & _ & _ & _ & T & L)]. unfold usable, sm_full_loss.
  rewrite (J _ None O I), (J _ (Some (snd p)) O O), (T _ O). destruct (L _ _ O O) as [-> ->]. auto.
Qed.
Lemma usable_inf p p' w h : R p p' -> sm_inference m (fst p) w = Ok h -> usable p p' h.
Proof.
  intros [E (ok & O & J & _ & I2 & _ & _ & T & L)] H. specialize (I2 _ _ H). unfold usable, sm_full_loss.
  rewrite (J _ None I2 I), (J _ (Some (snd p)) I2 O), (T _ I2). destruct (L _ _ O I2) as [-> ->]. auto.
Qed.
Lemma usable_laug p p' w h : R p p' -> sm_laug m (fst p) (snd p) w = Ok h -> usable p p' h.
Proof.
  intros [E (ok & O & J & _ & _ & _ & G2 & T & L)] H. specialize (G2 _ _ _ O H). unfold usable, sm_full_loss.
  rewrite (J _ None G2 I), (J _ (Some (snd p)) G2 O), (T _ G2). destruct (L _ _ O G2) as [-> ->]. auto.
Qed.
Lemma inf_eq p p' w : R p p' -> sm_inference m (fst p) w = sm_inference m' (fst p') w.
Proof. intros [_ (ok & _ & _ & H & _)]. apply H. Qed.
Lemma laug_eq p p' w : R p p' -> sm_laug m (fst p) (snd p) w = sm_laug m' (fst p') (snd p') w.
Proof. intros [E (ok & O & _ & _ & _ & H & _)]. rewrite E. apply H. exact O. Qed.

Lemma fc_eq p p' w b : R p p' -> find_constraint m (fst p) (snd p) w None b = find_constraint m' (fst p') (snd p') w None b.
Proof.
  intro H. unfold find_constraint. rewrite <- (laug_eq p p' w H). destruct (sm_laug m (fst p) (snd p) w) as [h|] eqn:E; [|reflexivity].
  cbn [bind]. destruct (usable_laug p p' w h H E) as (U1 & U2 & U3 & _). destruct (usable_truth p p' H) as (V1 & V2 & _ & _).
  rewrite (proj1 H). destruct HS as [_ <-].
  replace (sm_joint m' (fst p') h (if sm_rescale m then Some (snd p) else None)) with (sm_joint m (fst p) h (if sm_rescale m then Some (snd p) else None))
    by (destruct (sm_rescale m); assumption).
  replace (sm_joint m' (fst p') (snd p) (if sm_rescale m then Some (snd p) else None)) with (sm_joint m (fst p) (snd p) (if sm_rescale m then Some (snd p) else None))
    by (destruct (sm_rescale m); assumption).
  unfold sm_full_loss in U3. rewrite U3. reflexivity.
Qed.
Lemma fcs_eq S S' w b : Forall2 R S S' ->
  mapM (fun p => find_constraint m (fst p) (snd p) w None b) S = mapM (fun p => find_constraint m' (fst p) (snd p) w None b) S'.
Proof. apply (mapM_Forall2_eq R). intros p p' H. apply fc_eq. exact H. Qed.
Lemma snd_eq S S' : Forall2 R S S' -> map snd S' = map snd S.
Proof. induction 1 as [|p p' S S' H _ IH]; [reflexivity|]. cbn. rewrite IH, (proj1 H). reflexivity. Qed.
Lemma primal_eq S S' w C v : Forall2 R S S' ->
  objective_primal m w (map fst S) (map snd S) C v = objective_primal m' w (map fst S') (map snd S') C v.
Proof. intro H. unfold objective_primal. rewrite !combine_pairs, (fcs_eq S S' w true H). reflexivity. Qed.

(** ** perceptron *)
Lemma pc_update_eq p p' h lr w : R p p' -> usable p p' h -> pc_update m lr p h w = pc_update m' lr p' h w.
Proof.
  intros H (U1 & _ & _ & U4). unfold pc_update. rewrite (proj1 H), U4, U1. destruct (usable_truth p p' H) as (V1 & _). rewrite V1. reflexivity.
Qed.
Lemma pc_online_eq lr on S S' : Forall2 R S S' -> forall st, pc_online m lr on S st = pc_online m' lr on S' st.
Proof.
  induction 1 as [|p p' S S' H _ IH]; intro st; [reflexivity|]. cbn [pc_online]. rewrite <- (inf_eq p p' (pc_w st) H).
  destruct (sm_inference m (fst p) (pc_w st)) as [h|] eqn:E; [|reflexivity]. cbn [bind].
  rewrite (pc_update_eq p p' h lr _ H (usable_inf p p' _ h H E)). destruct (pc_update m' lr p' h (pc_w st)) as [[l w]|]; [apply IH|reflexivity].
Qed.
Lemma pc_updates_eq lr S S' : Forall2 R S S' -> forall w Yh, mapM (fun p => sm_inference m (fst p) w) S = Ok Yh ->
  forall st, pc_updates m lr (combine S Yh) st = pc_updates m' lr (combine S' Yh) st.
Proof.
  induction 1 as [|p p' S S' H _ IH]; intros w Yh E st; [reflexivity|]. cbn [mapM] in E.
  destruct (sm_inference m (fst p) w) as [h|] eqn:EH; [|discriminate]. cbn [bind] in E.
  destruct (mapM _ S) as [hs|] eqn:ES; [|discriminate]. cbn [bind] in E. injection E as <-. cbn [combine pc_updates].
  rewrite (pc_update_eq p p' h lr _ H (usable_inf p p' _ h H EH)). destruct (pc_update m' lr p' h (pc_w st)) as [[l v]|]; [|reflexivity].
  apply (IH w hs ES).
Qed.
Lemma pc_batch_eq lr on S S' st : Forall2 R S S' -> pc_batch_epoch m lr on S st = pc_batch_epoch m' lr on S' st.
Proof.
  intro H. unfold pc_batch_epoch. rewrite <- (mapM_Forall2_eq R (fun p => sm_inference m (fst p) (pc_w st)) _ S S' (fun p p' HP => inf_eq p p' (pc_w st) HP) H).
  destruct (mapM _ S) as [Yh|] eqn:E; [|reflexivity]. rewrite (pc_updates_eq lr S S' H _ _ E). reflexivity.
Qed.
Lemma pc_loop_eq prm S S' ml k : Forall2 R S S' -> forall it st curve, pc_loop prm m S ml k it st curve = pc_loop prm m' S' ml k it st curve.
Proof.
  intro H. induction k as [|k IH]; intros it st curve; [reflexivity|]. cbn [pc_loop]. destruct (pc_rate prm it) as [lr|]; [|reflexivity].
  replace (if pc_batch prm then pc_batch_epoch m' lr (pc_on (pc_avg prm) it) S' (pc_begin (pc_avg prm) st) else pc_online m' lr (pc_on (pc_avg prm) it) S' (pc_begin (pc_avg prm) st))
    with (if pc_batch prm then pc_batch_epoch m lr (pc_on (pc_avg prm) it) S (pc_begin (pc_avg prm) st) else pc_online m lr (pc_on (pc_avg prm) it) S (pc_begin (pc_avg prm) st))
    by (destruct (pc_batch prm); [apply pc_batch_eq|apply pc_online_eq]; exact H).
  destruct (if pc_batch prm then _ else _) as [st' [e|]]; cbn [fst snd]; [reflexivity|].
  destruct (match (if Qceqb ml 0 then None else Some (pc_losses st' / ml)) with Some v => Qceqb v 0 | None => false end); [reflexivity|apply IH].
Qed.
Lemma pc_fit_eq prm mloss old S S' : Forall2 R S S' -> pc_fit prm m mloss old S = pc_fit prm m' mloss old S'.
Proof.
  intro H. unfold pc_fit. rewrite (proj1 HS).
  replace (mapM (fun p => mloss (snd p)) S') with (mapM (fun p => mloss (snd p)) S)
    by (apply (mapM_Forall2_eq R); [intros p p' HP; rewrite (proj1 HP); reflexivity|exact H]).
  destruct (match pc_avg prm with FromEpoch k => _ | _ => _ end); [reflexivity|].
  destruct (mapM _ S) as [mls|]; [|reflexivity]. rewrite (pc_loop_eq _ S S' (lsum mls) _ H). reflexivity.
Qed.

(** ** batches *)
Notation bm := (base_bmodel m).
Notation bm' := (base_bmodel m').
Inductive usables : list (X * Y) -> list (X' * Y) -> list Y -> Prop :=
| us_nil : usables [] [] []
| us_cons p p' h S S' H : R p p' -> usable p p' h -> usables S S' H -> usables (p :: S) (p' :: S') (h :: H).
Lemma usables_truth S S' : Forall2 R S S' -> usables S S' (map snd S).
Proof. induction 1; cbn; constructor; auto using usable_truth. Qed.
Lemma batch_laug S S' w : Forall2 R S S' ->
  bm_laug bm (map fst S) (map snd S) w = bm_laug bm' (map fst S') (map snd S') w.
Proof. intro H. cbn [bm_laug base_bmodel]. rewrite !combine_pairs. apply (mapM_Forall2_eq R); [|exact H]. intros p p' HP. apply laug_eq. exact HP. Qed.
Lemma usables_laug S S' : Forall2 R S S' -> forall w Yh, bm_laug bm (map fst S) (map snd S) w = Ok Yh -> usables S S' Yh.
Proof.
  cbn [bm_laug base_bmodel]. intro H. induction H as [|p p' S S' H _ IH]; intros w Yh E.
  - injection E as <-. constructor.
  - cbn [map combine mapM fst snd] in E. destruct (sm_laug m (fst p) (snd p) w) as [h|] eqn:EH; [|discriminate]. cbn [bind] in E.
    destruct (mapM _ _) as [hs|] eqn:ES; [|discriminate]. cbn [bind] in E. injection E as <-. constructor; eauto using usable_laug.
Qed.
Lemma batch_joint S S' Yh yt : usables S S' Yh -> yt = None \/ yt = Some (map snd S) ->
  bm_joint bm (map fst S) Yh yt = bm_joint bm' (map fst S') Yh yt.
Proof.
  intros U HY. cbn [bm_joint base_bmodel]. destruct HS as [<- <-]. destruct HY as [-> | ->].
  - destruct (sm_rescale m); [reflexivity|]. generalize (vzero (sm_size m)).
    induction U as [|p p' h S S' H HP (U1 & _) _ IH]; intro acc; [reflexivity|]. cbn. rewrite U1. destruct (sm_joint m' (fst p') h None); [|reflexivity].
    cbn. destruct (np_vadd acc a); [apply IH|reflexivity].
  - generalize (vzero (sm_size m)). destruct (sm_rescale m).
    + induction U as [|p p' h S S' H HP (_ & U2 & _) _ IH]; intro acc; [reflexivity|]. cbn. rewrite U2. destruct (sm_joint m' (fst p') h _); [|reflexivity].
      cbn. destruct (np_vadd acc a); [apply IH|reflexivity].
    + induction U as [|p p' h S S' H HP (U1 & _) _ IH]; intro acc; [reflexivity|]. cbn. rewrite U1. destruct (sm_joint m' (fst p') h None); [|reflexivity].
      cbn. destruct (np_vadd acc a); [apply IH|reflexivity].
Qed.
Lemma batch_loss S S' Yh : usables S S' Yh -> bm_loss bm (map snd S) Yh = bm_loss bm' (map snd S') Yh.
Proof.
  cbn [bm_loss base_bmodel]. induction 1 as [|p p' h S S' H HP (_ & _ & U3 & _) _ IH]; [reflexivity|]. cbn [map combine mapM fst snd].
  rewrite (proj1 HP), U3, IH. reflexivity.
Qed.
Lemma rescale_eq (S : list (X * Y)) : (if sm_rescale m then Some (map snd S) else None) = None \/ (if sm_rescale m then Some (map snd S) else None) = Some (map snd S).
Proof. destruct (sm_rescale m); auto. Qed.

(** ** subgradient *)
Lemma sg_online_eq prm n lr S S' : Forall2 R S S' -> forall st pos, sg_online prm m n lr S st pos = sg_online prm m' n lr S' st pos.
Proof.
  induction 1 as [|p p' S S' H _ IH]; intros st pos; [reflexivity|]. cbn [sg_online]. unfold sg_online_step. rewrite (fc_eq p p' _ true H).
  destruct (find_constraint m' _ _ _ _ _) as [[[[h d] s] l]|]; [|reflexivity]. cbn [bind]. destruct (solve_subgradient _ _ _ _ _); [|reflexivity]. cbn [bind]. apply IH.
Qed.
Lemma sg_mini_step_eq prm n lr B B' st : Forall2 R B B' -> sg_mini_step prm bm n lr B st = sg_mini_step prm bm' n lr B' st.
Proof.
  intro H. unfold sg_mini_step. rewrite <- (batch_laug B B' (sg_w st) H). destruct (bm_laug bm _ _ _) as [Yh|] eqn:E; [|reflexivity]. cbn [bind].
  assert (U := usables_laug B B' H _ _ E). rewrite <- (batch_joint B B' Yh None U (or_introl eq_refl)), <- (batch_loss B B' Yh U).
  rewrite (snd_eq B B' H), <- (batch_joint B B' (map snd B) None (usables_truth B B' H) (or_introl eq_refl)), (Forall2_length_eq _ _ _ H).
  replace (bm_loss bm' (map snd B) Yh) with (bm_loss bm (map snd B) Yh); [reflexivity|]. rewrite <- (snd_eq B B' H) at 2. apply batch_loss. exact U.
Qed.
Lemma sg_mini_eq prm n lr b Bs Bs' : Forall2 (Forall2 R) Bs Bs' -> forall st pos, sg_mini prm bm n lr b Bs st pos = sg_mini prm bm' n lr b Bs' st pos.
Proof.
  induction 1 as [|B B' Bs Bs' H _ IH]; intros st pos; [reflexivity|]. cbn [sg_mini]. rewrite (sg_mini_step_eq prm n lr B B' st H).
  destruct (sg_mini_step _ _ _ _ _ _); [apply IH|reflexivity].
Qed.
Lemma slices_eq (sl : list (nat * nat)) S S' : Forall2 R S S' ->
  Forall2 (Forall2 R) (map (fun s => slice (fst s) (snd s) S) sl) (map (fun s => slice (fst s) (snd s) S') sl).
Proof. intro H. induction sl as [|s sl IH]; cbn [map]; constructor; auto using Forall2_slice. Qed.
Lemma sg_sequential_eq prm lr S S' st : Forall2 R S S' -> sg_sequential prm bm lr S st = sg_sequential prm bm' lr S' st.
Proof.
  intro H. unfold sg_sequential. cbn [bm_s base_bmodel]. rewrite (Forall2_length_eq _ _ _ H). destruct (sg_batch prm) as [b|]; [|apply sg_online_eq; exact H].
  destruct (b =? 1)%Z; [apply sg_online_eq; exact H|]. destruct (b =? -1)%Z; cbn [bind].
  - apply sg_mini_eq. repeat constructor. exact H.
  - destruct (sg_slices _ b) as [sl|]; [|reflexivity]. cbn [bind]. apply sg_mini_eq. apply slices_eq. exact H.
Qed.
Lemma sg_par_eq prm n lr Bs Bs' : Forall2 (Forall2 R) Bs Bs' -> forall st pos, sg_par prm m n lr Bs st pos = sg_par prm m' n lr Bs' st pos.
Proof.
  induction 1 as [|B B' Bs Bs' H _ IH]; intros st pos; [reflexivity|]. cbn [sg_par]. unfold sg_par_step.
  rewrite (fcs_eq B B' (sg_w st) true H), (proj1 HS). destruct (mapM _ B') as [cs|]; [|reflexivity]. cbn [bind].
  destruct (sg_gather cs _ 0) as [q|]; [|reflexivity]. cbn [bind]. destruct (solve_subgradient _ _ _ _ _); [|reflexivity]. cbn [bind]. apply IH.
Qed.
Lemma sg_epoch_eq prm lr S S' st : Forall2 R S S' -> sg_epoch prm bm lr S st = sg_epoch prm bm' lr S' st.
Proof.
  intro H. unfold sg_epoch. destruct (sg_jobs prm =? 1)%Z; [apply sg_sequential_eq; exact H|]. unfold sg_parallel. cbn [bm_s base_bmodel].
  destruct (match sg_batch prm with None => true | Some _ => false end); [|reflexivity]. cbn [ensure bind]. rewrite (Forall2_length_eq _ _ _ H).
  destruct (sg_slices _ _) as [sl|]; [|reflexivity]. cbn [bind]. apply sg_par_eq, slices_eq. exact H.
Qed.
Lemma sg_loop_eq prm lr shuf shuf' k : (forall it A A', Forall2 R A A' -> Forall2 R (shuf it A) (shuf' it A')) ->
  forall it S S' st curve, Forall2 R S S' ->
  match sg_loop prm bm lr shuf k it S st curve, sg_loop prm bm' lr shuf' k it S' st curve with
  | Ok (s, c, T), Ok (s', c', T') => s = s' /\ c = c' /\ Forall2 R T T'
  | Err e, Err e' => e = e'
  | _, _ => False
  end.
Proof.
  intro HSh. induction k as [|k IH]; intros it S S' st curve H; cbn [sg_loop]; [auto|].
  assert (H' := HSh it S S' H). rewrite (sg_epoch_eq prm lr _ _ st H'). destruct (sg_epoch prm bm' lr (shuf' it S') st) as [[s z]|]; [|reflexivity]. cbn [bind fst snd].
  destruct ((z =? 0)%Z && sg_break prm)%bool; [auto|]. unfold sg_objective. cbn [bm_s base_bmodel]. rewrite (primal_eq _ _ (sg_self s) (sg_C prm) NSlack H').
  destruct (objective_primal m' _ _ _ _ _) as [o|]; [|reflexivity]. cbn [bind]. apply IH. exact H'.
Qed.
Lemma sg_fit_eq prm shuf shuf' warm S S' L : Forall2 R S S' -> (forall it A A', Forall2 R A A' -> Forall2 R (shuf it A) (shuf' it A')) ->
  sg_fit prm bm shuf warm S L = sg_fit prm bm' shuf' warm S' L.
Proof.
  intros H HSh. unfold sg_fit. cbn [bm_s base_bmodel]. rewrite (proj1 HS), (Forall2_length_eq _ _ _ H).
  destruct (if warm then _ else _) as [[lr c]|]; [|reflexivity]. cbn [bind fst snd].
  match goal with |- context [sg_loop prm bm lr shuf ?k ?it S ?st c] => assert (Q := sg_loop_eq prm lr shuf shuf' k HSh it S S' st c H); revert Q; generalize st end.
  intros st Q. destruct (sg_loop prm bm _ _ _ _ _ _ _) as [[[s cu] T]|e], (sg_loop prm bm' _ _ _ _ _ _ _) as [[[s' cu'] T']|e']; cbn [bind]; try contradiction; [|congruence].
  destruct Q as (<- & <- & HT). unfold sg_objective. cbn [bm_s base_bmodel]. rewrite (primal_eq T T' (sg_self s) (sg_C prm) NSlack HT). reflexivity.
Qed.

(** ** Frank-Wolfe *)
Lemma index_Forall2 S S' i : Forall2 R S S' ->
  (exists p p', index S i = Ok p /\ index S' i = Ok p' /\ R p p') \/ (index S i = Err IndexError /\ index S' i = Err IndexError).
Proof.
  intro H. revert i. induction H as [|p p' S S' H _ IH]; intros [|i]; cbn; [right; auto|right; auto|left; eauto|]. unfold index in *. cbn. apply IH.
Qed.
Lemma index_map {A B} (f : A -> B) l i : index (map f l) i = (let! a := index l i in Ok (f a)).
Proof. unfold index. rewrite nth_error_map. destruct (nth_error l i); reflexivity. Qed.
Lemma fw_step_eq prm S S' i st : Forall2 R S S' ->
  fw_step prm m (map fst S) (map snd S) i st = fw_step prm m' (map fst S') (map snd S') i st.
Proof.
  intro H. unfold fw_step. rewrite !index_map, !map_length, (Forall2_length_eq _ _ _ H).
  destruct (index_Forall2 S S' i H) as [(p & p' & -> & -> & HP)|[-> ->]]; [|reflexivity]. cbn [bind]. rewrite (fc_eq p p' _ true HP). reflexivity.
Qed.
Lemma fw_pass_eq prm S S' idx : Forall2 R S S' -> forall st,
  fw_pass prm m (map fst S) (map snd S) idx st = fw_pass prm m' (map fst S') (map snd S') idx st.
Proof.
  intro H. induction idx as [|i idx IH]; intro st; [reflexivity|]. cbn [fw_pass]. rewrite (fw_step_eq prm S S' i st H).
  destruct (fw_step _ m' _ _ _ _); [apply IH|reflexivity].
Qed.
Lemma gap_eq C S S' w l : Forall2 R S S' ->
  calc_dual_gap C bm (map fst S) (map snd S) w l = calc_dual_gap C bm' (map fst S') (map snd S') w l.
Proof.
  intro H. unfold calc_dual_gap. rewrite <- (batch_laug S S' w H).
  rewrite (batch_joint S S' (map snd S) (Some (map snd S)) (usables_truth S S' H) (or_intror eq_refl)), (snd_eq S S' H).
  destruct (bm_joint bm' _ _ _) as [gt|]; [|reflexivity]. cbn [bind]. destruct (bm_laug bm _ _ w) as [Yh|] eqn:E; [|reflexivity]. cbn [bind].
  assert (U := usables_laug S S' H _ _ E). rewrite (batch_joint S S' Yh None U (or_introl eq_refl)), (batch_loss S S' Yh U), (snd_eq S S' H), !map_length, (Forall2_length_eq _ _ _ H).
  reflexivity.
Qed.
Lemma fw_bc_loop_eq prm S S' sched k : Forall2 R S S' -> forall it st gap primal curve,
  fw_bc_loop prm bm (map fst S) (map snd S) sched k it st gap primal curve = fw_bc_loop prm bm' (map fst S') (map snd S') sched k it st gap primal curve.
Proof.
  intro H. induction k as [|k IH]; intros it st gap primal curve; [reflexivity|]. cbn [fw_bc_loop bm_s base_bmodel]. rewrite (fw_pass_eq prm S S' _ H).
  destruct (fw_pass _ m' _ _ _ _) as [st'|]; [|reflexivity]. cbn [bind]. fold bm bm'. rewrite (gap_eq (fw_C prm) S S' _ _ H).
  match goal with |- bind ?r _ = _ => destruct r as [[[gp pr] cu]|] end; [|reflexivity]. cbn [bind]. destruct gp as [q|]; [|reflexivity]. destruct (Qcltb q _); [reflexivity|apply IH].
Qed.
Lemma fw_batch_step_eq prm S S' gt it st : Forall2 R S S' ->
  fw_batch_step prm bm (map fst S) (map snd S) gt it st = fw_batch_step prm bm' (map fst S') (map snd S') gt it st.
Proof.
  intro H. unfold fw_batch_step. rewrite <- (batch_laug S S' _ H). destruct (bm_laug bm _ _ _) as [Yh|] eqn:E; [|reflexivity]. cbn [bind].
  assert (U := usables_laug S S' H _ _ E). rewrite (batch_joint S S' Yh None U (or_introl eq_refl)), (batch_loss S S' Yh U), !map_length, (Forall2_length_eq _ _ _ H).
  reflexivity.
Qed.
Lemma fw_batch_loop_eq prm S S' gt k : Forall2 R S S' -> forall it st,
  fw_batch_loop prm bm (map fst S) (map snd S) gt k it st = fw_batch_loop prm bm' (map fst S') (map snd S') gt k it st.
Proof.
  intro H. induction k as [|k IH]; intros it st; [reflexivity|]. cbn [fw_batch_loop]. rewrite (fw_batch_step_eq prm S S' gt it st H).
  destruct (fw_batch_step _ bm' _ _ _ _ _) as [[s q]|]; [|reflexivity]. cbn [bind fst snd]. destruct (Qcltb q _); [reflexivity|apply IH].
Qed.
Lemma fw_fit_eq prm S S' sched old : Forall2 R S S' ->
  fw_fit prm bm (map fst S) (map snd S) sched old = fw_fit prm bm' (map fst S') (map snd S') sched old.
Proof.
  intro H. unfold fw_fit. cbn [bm_s base_bmodel]. rewrite (proj1 HS). destruct (match old with Some o => o | None => _ end) as [w l].
  unfold frank_wolfe_batch, frank_wolfe_bc. cbn [bm_s base_bmodel]. fold bm bm'.
  rewrite (batch_joint S S' (map snd S) (Some (map snd S)) (usables_truth S S' H) (or_intror eq_refl)).
  rewrite (proj1 HS), !map_length, (Forall2_length_eq _ _ _ H), (fw_bc_loop_eq prm S S' sched _ H), (snd_eq S S' H).
  replace (let! gt := bm_joint bm' (map fst S') (map snd S) (Some (map snd S)) in fw_batch_loop prm bm (map fst S) (map snd S) gt (fw_max_iter prm) 0 (FWBState w 0 [] []))
    with (let! gt := bm_joint bm' (map fst S') (map snd S) (Some (map snd S)) in fw_batch_loop prm bm' (map fst S') (map snd S') gt (fw_max_iter prm) 0 (FWBState w 0 [] []))
    by (destruct (bm_joint bm' _ _ _) as [gt|]; [cbn [bind]; symmetry; apply fw_batch_loop_eq; exact H|reflexivity]).
  rewrite (snd_eq S S' H). destruct (if fw_batch prm then _ else _) as [[[[w' l'] pr] cu]|]; [|reflexivity]. cbn [bind].
  rewrite (primal_eq S S' w' (fw_C prm) NSlack H), (snd_eq S S' H). reflexivity.
Qed.
End Alike.
