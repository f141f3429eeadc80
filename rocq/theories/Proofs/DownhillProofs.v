From Verif Require Import Model.DownhillSimplex Spec.TaskSpec Proofs.Arrays Proofs.LearnerProofs.

Lemma ofN_pos n : (0 < n)%nat -> 0 < ofN n.
Proof.
  destruct n as [|n]; [lia|]. intros _. rewrite ofN_S. pose proof (ofN_nonneg n). assert (0 < 1) by reflexivity.
  generalize dependent (ofN n). intros; qclra.
Qed.
Lemma pos_nz (q : Qc) : 0 < q -> q <> 0.
Proof. intros H E. rewrite E in H. discriminate. Qed.

(** the objective is objective_primal with C / n, divided by C *)
Lemma ds_is_primal {X Y} (m : smodel X Y) C Xs Ys w v : length Xs = length Ys -> Xs <> [] -> C <> 0 ->
  ds_objective m C Xs Ys w = (let! r := objective_primal m w Xs Ys (C / ofN (length Xs)) v in Ok (r / C)).
Proof.
  intros HL HN HC. unfold ds_objective.
  assert (V : objective_primal m w Xs Ys (C / ofN (length Xs)) v = objective_primal m w Xs Ys (C / ofN (length Xs)) OneSlack).
  { destruct v; auto. apply objective_variants. }
  rewrite V. unfold objective_primal.
  destruct (mapM (fun p => find_constraint m (fst p) (snd p) w None true) (combine Xs Ys)) as [cs|e] eqn:E; cbn [bind]; [|reflexivity].
  pose proof (LossProofs.mapM_length _ _ _ E) as L. rewrite combine_length, <- HL, Nat.min_id in L.
  assert (NZ : (length Xs =? 0)%nat = false) by (apply Nat.eqb_neq; destruct Xs; [congruence|discriminate]).
  rewrite L, NZ. cbn [negb ensure bind].
  destruct (Qceqb_spec C 0) as [Z|_]; [congruence|].
  assert (P := slacks_nonneg m w _ cs E). 
  assert (P' : 0 <= lsum (map (fun c => snd (fst c)) cs)) by (apply lsum_nonneg; intros q I; rewrite Forall_forall in P; now apply P).
  unfold Qcmax. destruct (Qcleb_spec (lsum (map (fun c => snd (fst c)) cs)) 0) as [Q|Q].
  - replace (lsum (map (fun c => snd (fst c)) cs)) with 0 by (apply Qcle_antisym; assumption).
    f_equal. assert (N : ofN (length Xs) <> 0) by (apply pos_nz, ofN_pos; destruct Xs; [congruence|cbn; lia]).
    clear V. generalize dependent (ofN (length Xs)). intros n Hn. field. repeat split; auto; discriminate.
  - f_equal. assert (N : ofN (length Xs) <> 0) by (apply pos_nz, ofN_pos; destruct Xs; [congruence|cbn; lia]).
    clear V. generalize dependent (ofN (length Xs)). intros n Hn. field. repeat split; auto; discriminate.
Qed.
Lemma ds_empty {X Y} (m : smodel X Y) C Ys w : ds_objective m C [] Ys w = Err ZeroDivisionError.
Proof. reflexivity. Qed.

(** the better of the two runs *)
Lemma ds_better {X Y} (fmin : minimizer) (m : smodel X Y) C Xs Ys w :
  ds_fit fmin m C Xs Ys = Ok w -> exists w1 v1 w2 v2,
    fmin (ds_objective m C Xs Ys) (repeat (ds_start + 1) (sm_size m)) = Ok (w1, v1) /\
    fmin (ds_objective m C Xs Ys) (repeat ds_start (sm_size m)) = Ok (w2, v2) /\
    ((w = w1 /\ v1 < v2) \/ (w = w2 /\ v2 <= v1)).
Proof.
  unfold ds_fit. intros E. apply bind_ok in E. destruct E as ([w1 v1] & E1 & E). apply bind_ok in E. destruct E as ([w2 v2] & E2 & E).
  cbn [fst snd] in E. exists w1, v1, w2, v2.
  replace (map (fun v => v + 1) (repeat ds_start (sm_size m))) with (repeat (ds_start + 1) (sm_size m)) in E1.
  - split; [assumption|]. split; [assumption|]. destruct (Qcltb_spec v1 v2) as [Q|Q]; injection E as <-; [left|right]; auto.
  - clear. generalize (sm_size m). intros k. induction k; cbn [repeat map]; [reflexivity|]. now f_equal.
Qed.

(** what fmin promises: the reported value is that of the reported point, and not above the value at the start *)
Lemma ds_not_worse {X Y} (fmin : minimizer) (m : smodel X Y) C Xs Ys w :
  (forall f x0 x v, fmin f x0 = Ok (x, v) -> f x = Ok v /\ exists v0, f x0 = Ok v0 /\ v <= v0) ->
  ds_fit fmin m C Xs Ys = Ok w -> exists v s1 s2,
    ds_objective m C Xs Ys w = Ok v /\
    ds_objective m C Xs Ys (repeat (ds_start + 1) (sm_size m)) = Ok s1 /\
    ds_objective m C Xs Ys (repeat ds_start (sm_size m)) = Ok s2 /\ v <= s1 /\ v <= s2.
Proof.
  intros HD E. destruct (ds_better fmin m C Xs Ys w E) as (w1 & v1 & w2 & v2 & E1 & E2 & H).
  destruct (HD _ _ _ _ E1) as (V1 & s1 & S1 & L1), (HD _ _ _ _ E2) as (V2 & s2 & S2 & L2).
  destruct H as [[-> H]|[-> H]]; [exists v1|exists v2]; exists s1, s2; repeat split; auto; qclra.
Qed.
Lemma ds_minimal {X Y} (fmin : minimizer) (m : smodel X Y) C Xs Ys w v d :
  length Xs = length Ys -> Xs <> [] -> 0 < C ->
  (forall f x0 x v, fmin f x0 = Ok (x, v) -> f x = Ok v) ->
  (* one of the two runs finds a minimum *)
  (exists x0 x v, (x0 = repeat ds_start (sm_size m) \/ x0 = repeat (ds_start + 1) (sm_size m)) /\
     fmin (ds_objective m C Xs Ys) x0 = Ok (x, v) /\
     forall w' v', length w' = d -> ds_objective m C Xs Ys w' = Ok v' -> v <= v') ->
  ds_fit fmin m C Xs Ys = Ok w ->
  exists r, objective_primal m w Xs Ys (C / ofN (length Xs)) v = Ok r /\
    forall w' r', length w' = d -> objective_primal m w' Xs Ys (C / ofN (length Xs)) v = Ok r' -> r <= r'.
Proof.
  intros HL HN HC HV (x0 & x & vm & HX & EM & HM) E.
  destruct (ds_better fmin m C Xs Ys w E) as (w1 & v1 & w2 & v2 & E1 & E2 & H).
  assert (G : exists vw, ds_objective m C Xs Ys w = Ok vw /\ vw <= vm).
  { pose proof (HV _ _ _ _ E1) as V1. pose proof (HV _ _ _ _ E2) as V2.
    assert (M : vm = v1 \/ vm = v2). { destruct HX as [-> | ->]; [right|left]; congruence. }
    destruct H as [[-> H]|[-> H]]; [exists v1|exists v2]; (split; [assumption|]); destruct M as [-> | ->]; try apply Qcle_refl; try assumption; now apply Qclt_le_weak. }
  destruct G as (vw & EW & LE). assert (NZ : C <> 0) by now apply pos_nz.
  rewrite (ds_is_primal m C Xs Ys w v HL HN NZ) in EW. apply bind_ok in EW. destruct EW as (r & ER & EW). injection EW as EW.
  exists r. split; [assumption|]. intros w' r' Lw ER'.
  assert (Q : vm <= r' / C). { apply (HM w'); [assumption|]. rewrite (ds_is_primal m C Xs Ys w' v HL HN NZ), ER'. reflexivity. }
  assert (Q' : r / C <= r' / C) by (rewrite EW; eapply Qcle_trans; eassumption).
  apply Qcmult_le_compat_r with (z := C) in Q'; [|now apply Qclt_le_weak].
  replace (r / C * C) with r in Q' by (field; exact NZ). replace (r' / C * C) with r' in Q' by (field; exact NZ). exact Q'.
Qed.

(** two equal samples, hinge loss max(0, 1 - w) *)
Definition ex23_m : smodel unit bool := SModel 1 false
  (fun _ (y : bool) _ => Ok ([if y then 1 else 0] : list Qc))
  (fun _ w => Ok (Qcltb 0 (get1 w 0)))
  (fun _ (y : bool) w => Ok (if y then negb (Qcltb (get1 w 0) 1) else Qcltb 0 (get1 w 0 + 1)))
  (fun _ => false)
  (fun y y' : bool => Ok (if Bool.eqb y y' then 0 else 1)) (fun _ _ => Ok 0).
Definition ex23_half : Qc := Q2Qc (1 # 2).
Lemma ex23_constraint q : exists yh delta loss,
  find_constraint ex23_m tt true [q] None true = Ok (yh, delta, Qcmax (1 - q) 0, loss).
Proof.
  unfold find_constraint. cbn [sm_laug ex23_m bind sm_joint sm_rescale sm_tuple sm_loss]. unfold get1. cbn [nth].
  destruct (Qcltb_spec q 1) as [Q|Q]; cbn [negb bind np_vadd length vscale map Nat.eqb Bool.eqb].
  - eexists _, _, _. unfold np_dot. cbn [length vadd zipw Nat.eqb bind]. repeat f_equal. unfold vadd. cbn [zipw]. unfold dot. cbn [zipw lsum]. ring.
  - eexists _, _, _. unfold np_dot. cbn [length vadd zipw Nat.eqb bind]. f_equal. f_equal. f_equal. unfold vadd, dot. cbn [zipw lsum].
    assert (A1 : Qcmax (1 - q) 0 = 0). { unfold Qcmax. destruct (Qcleb_spec (1 - q) 0); [reflexivity|]. exfalso. qclra. }
    rewrite A1. f_equal. replace (0 - (q * (- (1) * 1 + 1) + 0)) with 0 by ring. unfold Qcmax. destruct (Qcleb_spec 0 0); reflexivity.
Qed.
Lemma ex23_ds q : ds_objective ex23_m ex23_half [tt; tt] [true; true] [q] = Ok (Qcmax (1 - q) 0 + q * q).
Proof.
  unfold ds_objective. cbn [combine mapM fst snd]. destruct (ex23_constraint q) as (yh & dl & ls & E). rewrite !E. cbn [bind map snd fst lsum length Nat.eqb negb ensure].
  destruct (Qceqb_spec ex23_half 0) as [Z|_]; [discriminate Z|]. f_equal. rewrite !ofN_S. change (ofN 0) with 0.
  unfold normsq, dot, ex23_half. cbn [zipw lsum]. replace (Q2Qc (1 # 2)) with (1 / (1 + 1)) by (apply Qc_is_canon; reflexivity).
  generalize (Qcmax (1 - q) 0). intros h. field. repeat split; discriminate.
Qed.
Lemma ex23_primal q v : objective_primal ex23_m [q] [tt; tt] [true; true] ex23_half v = Ok (Qcmax (1 - q) 0 + q * q / (1 + 1)).
Proof.
  unfold objective_primal. cbn [combine mapM fst snd]. destruct (ex23_constraint q) as (yh & dl & ls & E). rewrite !E. cbn [bind map snd fst length Nat.eqb negb ensure].
  assert (P : 0 <= Qcmax (1 - q) 0) by apply Qcmax_ge_r. f_equal.
  assert (H0 : Qcmax (Qcmax (1 - q) 0) 0 = Qcmax (1 - q) 0).
  { unfold Qcmax at 1. destruct (Qcleb_spec (Qcmax (1 - q) 0) 0) as [Z|Z]; [apply Qcle_antisym; assumption|reflexivity]. }
  set (h := Qcmax (1 - q) 0) in *.
  assert (HS : lsum (match v with NSlack => [Qcmax h 0; Qcmax h 0] | OneSlack => [h; h] end) = h + h).
  { destruct v; cbn [map lsum]; rewrite ?H0; ring. }
  rewrite HS. replace (Qcmax (h + h) 0) with (h + h).
  - unfold normsq, dot, ex23_half. cbn [zipw lsum]. replace (Q2Qc (1 # 2)) with (1 / (1 + 1)) by (apply Qc_is_canon; reflexivity).
    clear. field. discriminate.
  - unfold Qcmax. destruct (Qcleb_spec (h + h) 0) as [Z|Z]; [|reflexivity]. clear - P Z. clearbody h. apply Qcle_antisym; qclra.
Qed.
Lemma ex23_min q : ex23_half + ex23_half * ex23_half <= Qcmax (1 - q) 0 + q * q.
Proof.
  assert (1 - q <= Qcmax (1 - q) 0) by apply Qcmax_ge_l. generalize dependent (Qcmax (1 - q) 0). intros h H.
  assert (S : 0 <= (q - ex23_half) * (q - ex23_half)) by apply Qc_sq_nonneg.
  replace ((q - ex23_half) * (q - ex23_half)) with (q * q - (ex23_half + ex23_half) * q + ex23_half * ex23_half) in S by ring.
  replace (ex23_half + ex23_half) with 1 in S by (apply Qc_is_canon; reflexivity). rewrite Qcmult_1_l in S.
  replace (ex23_half + ex23_half * ex23_half) with (1 - ex23_half * ex23_half) by (apply Qc_is_canon; reflexivity).
  generalize dependent (ex23_half * ex23_half). generalize dependent (q * q). intros; qclra.
Qed.

Lemma ds_value {X Y} (m : smodel X Y) T d w Xs Ys C :
  length Xs = length Ys -> Xs <> [] -> C <> 0 -> length w = d ->
  (forall p, In p (combine Xs Ys) -> implements m T d (fst p) (snd p) /\ exact_laug m T w (fst p) (snd p)) ->
  exists hs, Forall2 (fun p h => is_hinge T w (fst p) (snd p) h) (combine Xs Ys) hs /\
    ds_objective m C Xs Ys w = Ok (lsum hs / ofN (length Xs) + normsq w / ((1 + 1) * C)).
Proof.
  intros HL HN HC Hw H. destruct (objective_value m T d w Xs Ys (C / ofN (length Xs)) OneSlack HL HN Hw H) as (hs & F & E).
  exists hs. split; [assumption|]. rewrite (ds_is_primal m C Xs Ys w OneSlack HL HN HC), E. cbn [bind]. f_equal. unfold primal_value.
  assert (N : ofN (length Xs) <> 0) by (apply pos_nz, ofN_pos; destruct Xs; [congruence|cbn; lia]).
  clear E. generalize dependent (ofN (length Xs)). intros n Hn. field. repeat split; auto; discriminate.
Qed.
Lemma ds_same_C_refuted : exists (m : smodel unit bool) C Xs Ys w,
  (exists v, ds_objective m C Xs Ys w = Ok v /\ forall w' v', length w' = 1%nat -> ds_objective m C Xs Ys w' = Ok v' -> v <= v') /\
  forall variant, exists r w' r', length w' = 1%nat /\
    objective_primal m w Xs Ys C variant = Ok r /\ objective_primal m w' Xs Ys C variant = Ok r' /\ r' < r.
Proof.
  exists ex23_m, ex23_half, [tt; tt], [true; true], [ex23_half]. split.
  - eexists. split; [apply ex23_ds|]. intros w' v' L E. destruct w' as [|q [|? ?]]; try discriminate L.
    rewrite ex23_ds in E. injection E as <-. replace (Qcmax (1 - ex23_half) 0) with ex23_half by (apply Qc_is_canon; reflexivity). apply ex23_min.
  - intros variant. eexists _, [1], _. split; [reflexivity|]. split; [apply ex23_primal|]. split; [apply ex23_primal|]. reflexivity.
Qed.
(** a minimiser for the example: it always finds the minimum (and honestly reports the value) *)
Definition ex23_fmin : minimizer := fun f x0 =>
  let! v0 := f x0 in let! v := f [ex23_half] in Ok (if Qcleb v v0 then ([ex23_half], v) else (x0, v0)).
Lemma ex23_fmin_descends f x0 x v : ex23_fmin f x0 = Ok (x, v) -> f x = Ok v /\ exists v0, f x0 = Ok v0 /\ v <= v0.
Proof.
  unfold ex23_fmin. intros E. apply bind_ok in E. destruct E as (v0 & E0 & E). apply bind_ok in E. destruct E as (v1 & E1 & E).
  destruct (Qcleb_spec v1 v0) as [Q|Q]; injection E as <- <-; (split; [assumption|]); exists v0; split; auto using Qcle_refl.
Qed.
Lemma ex23_fmin_min : exists x v, ex23_fmin (ds_objective ex23_m ex23_half [tt; tt] [true; true]) [ds_start] = Ok (x, v) /\
  forall w' v', length w' = 1%nat -> ds_objective ex23_m ex23_half [tt; tt] [true; true] w' = Ok v' -> v <= v'.
Proof.
  exists [ex23_half], (ex23_half + ex23_half * ex23_half). split.
  - unfold ex23_fmin. rewrite !ex23_ds. cbn [bind]. replace (Qcmax (1 - ex23_half) 0) with ex23_half by (apply Qc_is_canon; reflexivity).
    destruct (Qcleb_spec (ex23_half + ex23_half * ex23_half) (Qcmax (1 - ds_start) 0 + ds_start * ds_start)) as [Q|Q]; [reflexivity|].
    exfalso. apply (Qclt_not_le _ _ Q), ex23_min.
  - intros w' v' L E. destruct w' as [|q [|? ?]]; try discriminate L. rewrite ex23_ds in E. injection E as <-. apply ex23_min.
Qed.

Definition ex23_t : task unit bool := Task (fun _ _ => True) (fun (_ : unit) (y : bool) => [if y then 1 else 0])
  (fun y y' => if Bool.eqb y y' then 0 else 1).
Lemma ex23_met q : implements ex23_m ex23_t 1 tt true /\ exact_laug ex23_m ex23_t [q] tt true.
Proof.
  split.
  - split; [exact I|]. split; [reflexivity|]. intros y' _. destruct y'; repeat split.
  - exists (negb (Qcltb q 1)). split; [reflexivity|]. split; [exact I|]. intros y' _. unfold dot. cbn [ex23_t t_feat t_loss zipw lsum].
    rewrite !Qcplus_0_r. destruct (Qcltb_spec q 1) as [Q|Q]; destruct y'; cbn [negb Bool.eqb]; rewrite ?Qcmult_1_r, ?Qcmult_0_r; qclra.
Qed.
