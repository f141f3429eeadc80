(** Fourier-Motzkin elimination with back substitution, as a solver of linear programs. *)
From Verif Require Import Model.LP Spec.LPSpec Proofs.Arrays Proofs.FourierMotzkin.

Fixpoint least (us : list Qc) : option Qc :=
  match us with
  | [] => None
  | a :: r => Some (match least r with None => a | Some u => Qcmin a u end)
  end.
Lemma least_ok us : match least us with None => us = [] | Some u => In u us /\ forall v, In v us -> u <= v end.
Proof.
  induction us as [|a us IH]; [reflexivity|]. cbn [least]. destruct (least us) as [u|].
  - destruct IH as [I M]. unfold Qcmin. destruct (Qcleb_spec a u) as [G|G].
    + split; [left; reflexivity|]. intros v [<-|Hv]; [apply Qcle_refl|]. eapply Qcle_trans; [exact G|auto].
    + split; [right; exact I|]. intros v [<-|Hv]; [qclra|auto].
  - subst us. split; [left; reflexivity|]. intros v [<-|[]]. apply Qcle_refl.
Qed.
Definition val (x : list Qc) (c : ineq) : Qc := snd (bound_of c) - dot (fst (bound_of c)) x.
Definition lowers (cs : list ineq) (x : list Qc) : list Qc := map (val x) (filter (fun c => Qcltb (head c) 0) cs).
Definition uppers (cs : list ineq) (x : list Qc) : list Qc := map (val x) (filter (fun c => Qcltb 0 (head c)) cs).
Definition choose (cs : list ineq) (x : list Qc) : Qc :=
  match least (map Qcopp (lowers cs x)) with
  | Some l => - l
  | None => match least (uppers cs x) with Some u => u | None => 0 end
  end.
Lemma choose_sat n cs x : sized (S n) cs -> sat (elim cs) x -> sat cs (choose cs x :: x).
Proof.
  intros H G. apply (elim_sat n cs x H) in G. destruct G as (x0 & G). unfold sized in H. rewrite Forall_forall in H.
  unfold sat in *. rewrite Forall_forall in *.
  assert (LO : forall v, In v (lowers cs x) -> v <= x0).
  { intros v Hv. apply in_map_iff in Hv. destruct Hv as (c & <- & Hc). apply filter_In in Hc. destruct Hc as [Hc N].
    destruct (Qcltb_spec (head c) 0) as [N'|]; [|discriminate]. apply (holds_neg c x0 x n (H c Hc) N'), G, Hc. }
  assert (UP : forall v, In v (uppers cs x) -> x0 <= v).
  { intros v Hv. apply in_map_iff in Hv. destruct Hv as (c & <- & Hc). apply filter_In in Hc. destruct Hc as [Hc N].
    destruct (Qcltb_spec 0 (head c)) as [N'|]; [|discriminate]. apply (holds_pos c x0 x n (H c Hc) N'), G, Hc. }
  assert (B : (forall v, In v (lowers cs x) -> v <= choose cs x) /\ forall v, In v (uppers cs x) -> choose cs x <= v).
  { unfold choose. assert (L1 := least_ok (map Qcopp (lowers cs x))). destruct (least (map Qcopp (lowers cs x))) as [l|].
    - destruct L1 as [I M]. apply in_map_iff in I. destruct I as (l0 & <- & I). split.
      + intros v Hv. specialize (M (- v) (in_map _ _ _ Hv)). qclra.
      + intros v Hv. rewrite Qcopp_involutive. eapply Qcle_trans; [apply LO, I|apply UP, Hv].
    - apply map_eq_nil in L1. rewrite L1. split; [intros v []|]. assert (L2 := least_ok (uppers cs x)). destruct (least (uppers cs x)); [apply L2|].
      rewrite L2. intros v []. }
  intros c Hc. destruct (Qcltb_spec 0 (head c)) as [P|P].
  - apply (holds_pos c _ x n (H c Hc) P). apply B, in_map_iff. exists c. split; [reflexivity|]. apply filter_In.
    split; [exact Hc|]. destruct (Qcltb_spec 0 (head c)); [reflexivity|]. exfalso. qclra.
  - destruct (Qcltb_spec (head c) 0) as [Q|Q].
    + apply (holds_neg c _ x n (H c Hc) Q). apply B, in_map_iff. exists c. split; [reflexivity|]. apply filter_In.
      split; [exact Hc|]. destruct (Qcltb_spec (head c) 0); [reflexivity|]. exfalso. qclra.
    + assert (Z : head c = 0) by (apply Qcle_antisym; assumption). specialize (G c Hc). unfold holds in *.
      rewrite (holds_cons c _ x n (H c Hc)), Z, Qcmult_0_l. rewrite (holds_cons c _ x n (H c Hc)), Z, Qcmult_0_l in G. exact G.
Qed.
Fixpoint back (n : nat) (cs : list ineq) (x : list Qc) : list Qc :=
  match n with 0%nat => x | S n => let x' := back n (elim cs) x in choose cs x' :: x' end.
Lemma back_ok n : forall cs t, sized (n + 1) cs -> sat (elim_all n cs) [t] -> exists x, back n cs [t] = x ++ [t] /\ length x = n /\ sat cs (x ++ [t]).
Proof.
  induction n as [|n IH]; intros cs t H G; cbn [elim_all back] in *.
  - exists []. auto.
  - destruct (IH (elim cs) t (elim_sized _ _ H) G) as (x & E & L & S1). rewrite E. cbv zeta.
    exists (choose cs (x ++ [t]) :: x). split; [reflexivity|]. split; [cbn; lia|]. apply (choose_sat (n + 1) cs (x ++ [t]) H S1).
Qed.
(** the largest value of the last variable *)
Lemma top_ok cs t : sized 1 cs -> sat cs [t] -> (forall t', sat cs [t'] -> t' <= t) -> least (uppers cs []) = Some t.
Proof.
  intros H S0 B. assert (H' := H). unfold sized in H'. rewrite Forall_forall in H'.
  assert (UB : forall v, In v (uppers cs []) -> t <= v).
  { intros v Hv. apply in_map_iff in Hv. destruct Hv as (c & <- & Hc). apply filter_In in Hc. destruct Hc as [Hc N].
    destruct (Qcltb_spec 0 (head c)) as [N'|]; [|discriminate]. unfold sat in S0. rewrite Forall_forall in S0.
    apply (holds_pos c t [] 0 (H' c Hc) N'), S0, Hc. }
  assert (UP : forall t', t <= t' -> (forall v, In v (uppers cs []) -> t' <= v) -> sat cs [t']).
  { intros t' Ht Hv. unfold sat in *. rewrite Forall_forall in *. intros d Hd. specialize (S0 d Hd).
    destruct (Qcltb_spec 0 (head d)) as [Q|Q].
    - apply (holds_pos d _ [] 0 (H' d Hd) Q). apply Hv, in_map_iff. exists d. split; [reflexivity|]. apply filter_In.
      split; [exact Hd|]. destruct (Qcltb_spec 0 (head d)); [reflexivity|]. exfalso. qclra.
    - unfold holds in *. rewrite (holds_cons d _ [] 0 (H' d Hd)). rewrite (holds_cons d _ [] 0 (H' d Hd)) in S0.
      assert (G : 0 <= (- head d) * (t' - t)) by (apply Qcmult_nonneg; qclra).
      replace (head d * t') with (head d * t - (- head d) * (t' - t)) by ring.
      revert G S0. generalize (- head d * (t' - t)), (head d * t). clear. intros; qclra. }
  assert (LO := least_ok (uppers cs [])). destruct (least (uppers cs [])) as [u|].
  - f_equal. destruct LO as [I M]. apply Qcle_antisym; [|apply UB, I]. apply B, UP; [apply UB, I|exact M].
  - exfalso. assert (D : t + 1 <= t). { apply B, UP; [qclra|]. rewrite LO. intros v []. } qclra.
Qed.

(** ** the solver *)
Definition lp_system (pb : lp_problem) : list ineq :=
  let n := lp_vars pb in
  map (fun j => (tab1 n (fun i => - ind (i =? j)%nat), 0)) (seq 0 n) ++
  flat_map (fun r => [(row_vec (lp_A pb) n r, get1 (lp_b pb) r); (vscale (- (1)) (row_vec (lp_A pb) n r), - get1 (lp_b pb) r)])
           (seq 0 (lp_rows pb)).
Definition lp_costs (pb : lp_problem) : list Qc := vscale (- (1)) (tab1 (lp_vars pb) (get1 (lp_c pb))).
Definition with_objective (cs : list ineq) (c : list Qc) : list ineq :=
  (vscale (- (1)) c ++ [1], 0) :: map (fun d : ineq => (fst d ++ [0], snd d)) cs.
Definition fm_solve : lp_solver := fun pb =>
  let cs := with_objective (lp_system pb) (lp_costs pb) in
  match least (uppers (elim_all (lp_vars pb) cs) []) with
  | Some t => Ok (firstn (lp_vars pb) (back (lp_vars pb) cs [t]))
  | None => Err ValueError
  end.

Lemma lp_system_sized pb : sized (lp_vars pb) (lp_system pb).
Proof.
  apply Forall_forall. intros c Hc. apply in_app_iff in Hc. destruct Hc as [Hc|Hc].
  - apply in_map_iff in Hc. destruct Hc as (j & <- & _). apply tab1_length.
  - apply in_flat_map in Hc. destruct Hc as (r & _ & [<-|[<-|[]]]); cbn [fst]; unfold vscale, row_vec; rewrite ?map_length; apply tab1_length.
Qed.
Lemma lp_system_sat pb x : length x = lp_vars pb -> (sat (lp_system pb) x <-> feasible pb x).
Proof.
  intros Lx. unfold lp_system. set (n := lp_vars pb) in *.
  assert (NEG : forall j, (j < n)%nat -> dot (tab1 n (fun i => - ind (i =? j)%nat)) x = - get1 x j).
  { intros j Hj. rewrite dot_get by (rewrite tab1_length; congruence). rewrite tab1_length.
    rewrite (sumn_ext n _ (fun i => (- (1)) * (ind (i =? j)%nat * get1 x i))) by (intros i Hi; rewrite get1_tab1 by exact Hi; ring).
    rewrite sumn_mult_l, sumn_pick by exact Hj. ring. }
  unfold sat. split.
  - intro G. rewrite Forall_forall in G. split; [exact Lx|]. split.
    + intros j Hj. assert (D : holds (tab1 n (fun i => - ind (i =? j)%nat), 0) x).
      { apply G, in_app_iff. left. apply in_map_iff. exists j. split; [reflexivity|]. apply in_seq. fold n in Hj. lia. }
      unfold holds in D. cbn [fst snd] in D. rewrite NEG in D by exact Hj. qclra.
    + intros r Hr. assert (IN : forall c, In c [(row_vec (lp_A pb) n r, get1 (lp_b pb) r); (vscale (- (1)) (row_vec (lp_A pb) n r), - get1 (lp_b pb) r)] -> holds c x).
      { intros c Hc. apply G, in_app_iff. right. apply in_flat_map. exists r. split; [apply in_seq; lia|exact Hc]. }
      assert (D1 := IN _ (or_introl eq_refl)). assert (D2 := IN _ (or_intror (or_introl eq_refl))).
      unfold holds in D1, D2. cbn [fst snd] in D1, D2. rewrite dot_vscale_l in D2.
      rewrite (row_vec_value _ _ _ _ Lx) in D1, D2.
      replace (- (1) * row_value (lp_A pb) x r) with (- row_value (lp_A pb) x r) in D2 by ring.
      apply Qcle_antisym; qclra.
  - intros (_ & G1 & G2). apply Forall_forall. intros c Hc. apply in_app_iff in Hc. destruct Hc as [Hc|Hc].
    + apply in_map_iff in Hc. destruct Hc as (j & <- & Hj). apply in_seq in Hj. unfold holds. cbn [fst snd].
      assert (Hj' : (j < n)%nat) by lia. rewrite NEG by exact Hj'. specialize (G1 j Hj'). qclra.
    + apply in_flat_map in Hc. destruct Hc as (r & Hr & Hc). apply in_seq in Hr. assert (E := G2 r ltac:(lia)).
      destruct Hc as [<-|[<-|[]]]; unfold holds; cbn [fst snd]; rewrite ?dot_vscale_l, (row_vec_value _ _ _ _ Lx), E; [apply Qcle_refl|].
      replace (- (1) * get1 (lp_b pb) r) with (- get1 (lp_b pb) r) by ring. apply Qcle_refl.
Qed.
Lemma lp_costs_value pb x : length x = lp_vars pb -> dot (lp_costs pb) x = - dot (lp_c pb) x.
Proof. intros Lx. unfold lp_costs. rewrite dot_vscale_l, (dot_pad (lp_c pb) x), Lx. ring. Qed.
Lemma with_objective_sized n cs c : sized n cs -> length c = n -> sized (n + 1) (with_objective cs c).
Proof.
  intros H Lc. constructor; [cbn [fst]; unfold vscale; rewrite app_length, map_length, Lc; reflexivity|].
  unfold sized in *. rewrite Forall_forall in *. intros d Hd. apply in_map_iff in Hd. destruct Hd as (d0 & <- & Hd).
  cbn [fst]. rewrite app_length, (H _ Hd). reflexivity.
Qed.
Lemma with_objective_sat n cs c x t : sized n cs -> length c = n -> length x = n ->
  (sat (with_objective cs c) (x ++ [t]) <-> sat cs x /\ t <= dot c x).
Proof.
  intros H Lc Lx. unfold sat, with_objective. rewrite Forall_cons_iff.
  assert (HH : holds (vscale (- (1)) c ++ [1], 0) (x ++ [t]) <-> t <= dot c x).
  { unfold holds. cbn [fst snd]. rewrite dot_app by (unfold vscale; rewrite map_length; congruence).
    rewrite dot_vscale_l, dot_cons, dot_nil_l.
    replace (- (1) * dot c x + (1 * t + 0)) with (t - dot c x) by ring. split; intro; qclra. }
  rewrite HH. split.
  - intros [G1 G2]. split; [|exact G1]. rewrite Forall_forall in *. intros d Hd.
    specialize (G2 (fst d ++ [0], snd d) (in_map (fun d : ineq => (fst d ++ [0], snd d)) _ _ Hd)). unfold holds in *. cbn [fst snd] in G2.
    unfold sized in H. rewrite Forall_forall in H. rewrite dot_app in G2 by (rewrite (H d Hd); congruence).
    rewrite dot_cons, dot_nil_l in G2. replace (dot (fst d) x + (0 * t + 0)) with (dot (fst d) x) in G2 by ring. exact G2.
  - intros [G1 G2]. split; [exact G2|]. rewrite Forall_forall in *. intros d Hd. apply in_map_iff in Hd. destruct Hd as (d0 & <- & Hd).
    specialize (G1 d0 Hd). unfold holds in *. cbn [fst snd]. unfold sized in H. rewrite Forall_forall in H.
    rewrite dot_app by (rewrite (H d0 Hd); congruence). rewrite dot_cons, dot_nil_l.
    replace (dot (fst d0) x + (0 * t + 0)) with (dot (fst d0) x) by ring. exact G1.
Qed.
Lemma fm_solve_ok pb : (exists x, optimal pb x) -> exists x, fm_solve pb = Ok x /\ optimal pb x.
Proof.
  intros (xo & Fo & Mo). unfold fm_solve. set (n := lp_vars pb). set (cs := with_objective (lp_system pb) (lp_costs pb)).
  assert (LC : length (lp_costs pb) = n) by (unfold lp_costs, vscale; rewrite map_length; apply tab1_length).
  assert (SZ : sized (n + 1) cs) by (apply with_objective_sized; [apply lp_system_sized|exact LC]).
  assert (EQ : forall x t, length x = n -> (sat cs (x ++ [t]) <-> feasible pb x /\ t <= - dot (lp_c pb) x)).
  { intros x t Lx. unfold cs. rewrite (with_objective_sat n) by (apply lp_system_sized || assumption).
    rewrite (lp_system_sat pb x Lx), (lp_costs_value pb x Lx). reflexivity. }
  assert (Lo : length xo = n) by apply Fo.
  rewrite (top_ok (elim_all n cs) (- dot (lp_c pb) xo)).
  - destruct (back_ok n cs (- dot (lp_c pb) xo) SZ) as (x & E & L & G).
    + apply (elim_all_sat n cs _ SZ). exists xo. split; [exact Lo|]. apply EQ; [exact Lo|]. split; [exact Fo|apply Qcle_refl].
    + fold n. rewrite E, firstn_app, L, Nat.sub_diag, firstn_O, app_nil_r, (firstn_all2 x) by lia. exists x. split; [reflexivity|].
      apply EQ in G; [|exact L]. destruct G as [G1 G2]. split; [exact G1|]. intros x' F'. specialize (Mo x' F').
      eapply Qcle_trans; [|exact Mo]. qclra.
  - apply elim_all_sized, SZ.
  - apply (elim_all_sat n cs _ SZ). exists xo. split; [exact Lo|]. apply EQ; [exact Lo|]. split; [exact Fo|apply Qcle_refl].
  - intros t' S'. apply (elim_all_sat n cs _ SZ) in S'. destruct S' as (x & L & G). apply EQ in G; [|exact L]. destruct G as [G1 G2].
    specialize (Mo x G1). qclra.
Qed.
