From Coq Require Import ZArith Lia.
From Verif Require Import Spec.AlikeSpec Model.NSlack Model.OneSlack Proofs.Alike.

Section Cutting.
Context {X X' Y : Type}.
Notation same m m' S S' := (alike_sizes m m' /\ Forall2 (alike m m') S S').
Lemma len_eq (m : smodel X Y) (m' : smodel X' Y) S S' : Forall2 (alike m m') S S' -> length S = length S'.
Proof. apply Forall2_length_eq. Qed.

(** ** n-slack *)
Lemma ns_batch_eq yeq solve prm (m : smodel X Y) (m' : smodel X' Y) S S' n b st sl : same m m' S S' ->
  ns_batch_step yeq solve prm m S n b st sl = ns_batch_step yeq solve prm m' S' n b st sl.
Proof. intros [HS H]. unfold ns_batch_step. rewrite (fcs_eq m m' HS _ _ (st_w st) true (Forall2_slice _ (fst b) (snd b) _ _ H)). reflexivity. Qed.
Lemma ns_batches_eq yeq solve prm (m : smodel X Y) (m' : smodel X' Y) S S' n bs : same m m' S S' -> forall st new sl,
  ns_batches yeq solve prm m S n bs st new sl = ns_batches yeq solve prm m' S' n bs st new sl.
Proof.
  intro H. induction bs as [|b bs IH]; intros st new sl; [reflexivity|]. cbn [ns_batches]. rewrite (ns_batch_eq yeq solve prm m m' S S' n b st sl H).
  destruct (ns_batch_step yeq solve prm m' S' n b st sl) as [[[s k] q]|]; [apply IH|reflexivity].
Qed.
Lemma ns_loop_eq yeq solve prm S S' n k : forall it (m : smodel X Y) (m' : smodel X' Y) sw sw' st curve primal,
  same m m' S S' -> same_switch sw sw' S S' ->
  match ns_loop yeq solve prm S n k it m sw st curve primal, ns_loop yeq solve prm S' n k it m' sw' st curve primal with
  | Ok (s, c, p, r, mm), Ok (s', c', p', r', mm') => s = s' /\ c = c' /\ p = p' /\ r = r' /\ same mm mm' S S'
  | Err e, Err e' => e = e'
  | _, _ => False
  end.
Proof.
  induction k as [|k IH]; intros it m m' sw sw' st curve primal H HW; cbn [ns_loop]; [split; [|split; [|split; [|split]]]; auto|].
  destruct (batch_slices _ n) as [bs|]; [|reflexivity]. cbn [bind]. rewrite (ns_batches_eq yeq solve prm m m' S S' n bs H).
  destruct (ns_batches yeq solve prm m' S' n bs st 0 0) as [[[s new] sl]|]; [|reflexivity]. cbn [bind].
  destruct (st_objective s) as [o|]; [|reflexivity]. cbn [bind].
  match goal with |- context [if ?c then _ else _] => destruct c end.
  - destruct sw as [m2|], sw' as [m2'|]; cbn in HW; try contradiction.
    + apply IH; [exact HW|exact I].
    + split; [|split; [|split; [|split]]]; auto.
  - apply IH; assumption.
Qed.
Lemma ns_fit_eq yeq solve prm (m : smodel X Y) (m' : smodel X' Y) sw sw' S S' cs old : same m m' S S' -> same_switch sw sw' S S' ->
  ns_fit yeq solve prm m sw (map fst S) (map snd S) cs old = ns_fit yeq solve prm m' sw' (map fst S') (map snd S') cs old.
Proof.
  intros H HW. unfold ns_fit. rewrite !map_length, (len_eq m m' S S' (proj2 H)), !combine_pairs, (proj1 (proj1 H)).
  destruct (match cs with None => _ | Some _ => _ end) as [[[st curve] primal]|]; [|reflexivity]. cbn [bind].
  assert (Q := ns_loop_eq yeq solve prm S S' (length S') (ns_max_iter prm) 0 m m' sw sw' st curve primal H HW).
  destruct (ns_loop yeq solve prm S _ _ _ _ _ _ _ _) as [[[[[s c] p] r] mm]|e], (ns_loop yeq solve prm S' _ _ _ _ _ _ _ _) as [[[[[s' c'] p'] r'] mm']|e'];
    try contradiction; cbn [bind]; [|congruence].
  destruct Q as (<- & <- & <- & <- & [HS2 H2]). destruct (ensure _ _); [|reflexivity]. cbn [bind].
  rewrite (primal_eq mm mm' HS2 S S' (st_w s) (ns_C prm) NSlack H2). reflexivity.
Qed.

(** ** one slack *)
Lemma update_samples_eq ceq prm (m : smodel X Y) (m' : smodel X' Y) S S' Yh : usables m m' S S' Yh -> forall cache,
  update_samples ceq prm m cache (map fst S) (map snd S) Yh = update_samples ceq prm m' cache (map fst S') (map snd S') Yh.
Proof.
  induction 1 as [|p p' h S S' H HP (U1 & _ & U3 & _) _ IH]; intros [|s c]; try reflexivity. cbn [map update_samples]. unfold update_sample.
  rewrite (proj1 HP), U1, U3, IH. reflexivity.
Qed.
Lemma update_cache_eq ceq prm (m : smodel X Y) (m' : smodel X' Y) S S' Yh cache : usables m m' S S' Yh ->
  update_cache ceq prm m cache (map fst S) (map snd S) Yh = update_cache ceq prm m' cache (map fst S') (map snd S') Yh.
Proof. intro U. unfold update_cache. destruct (o_cache prm =? 0)%nat; [reflexivity|]. rewrite (update_samples_eq ceq prm m m' S S' Yh U). reflexivity. Qed.
Lemma from_cache_eq prm (m : smodel X Y) (m' : smodel X' Y) n gt st : alike_sizes m m' -> from_cache prm m n gt st = from_cache prm m' n gt st.
Proof. intros [E _]. unfold from_cache. rewrite E. reflexivity. Qed.
Lemma find_new_eq prm (m : smodel X Y) (m' : smodel X' Y) S S' gt w ls cs : same m m' S S' ->
  find_new prm (base_bmodel m) (map fst S) (map snd S) gt w ls cs = find_new prm (base_bmodel m') (map fst S') (map snd S') gt w ls cs.
Proof.
  intros [HS H]. unfold find_new. rewrite <- (batch_laug m m' S S' w H). cbn [bm_s base_bmodel]. rewrite <- (proj2 HS).
  destruct (bm_laug (base_bmodel m) _ _ w) as [Yh|] eqn:E; [|reflexivity]. cbn [bind]. assert (U := usables_laug m m' S S' H _ _ E).
  rewrite (batch_joint m m' HS S S' Yh _ U (rescale_eq m S)), (batch_loss m m' S S' Yh U), (snd_eq m m' S S' H), !map_length, (len_eq m m' S S' H). reflexivity.
Qed.
Lemma find_new_usable prm (m : smodel X Y) (m' : smodel X' Y) S S' gt w ls cs Yh c : same m m' S S' ->
  find_new prm (base_bmodel m) (map fst S) (map snd S) gt w ls cs = Ok (Some (Yh, c)) -> usables m m' S S' Yh.
Proof.
  intros [HS H] E. apply (usables_laug m m' S S' H w). unfold find_new in E. destruct (bm_laug (base_bmodel m) _ _ w) as [Y1|]; [|discriminate]. cbn [bind] in E.
  destruct (bm_joint (base_bmodel m) _ _ _); [|discriminate]. cbn [bind] in E. destruct (mean_diff _ _ _) as [dj|]; [|discriminate]. cbn [bind] in E.
  destruct (bm_loss (base_bmodel m) _ _) as [l|]; [|discriminate]. cbn [bind] in E. destruct (ensure _ _); [|discriminate]. cbn [bind] in E.
  destruct (np_dot w dj); [|discriminate]. cbn [bind] in E. destruct (os_check_bad _ _ _ _ _ _ _ _) as [[|]|]; try discriminate. cbn [bind] in E. congruence.
Qed.
Lemma os_loop_eq ceq solve prm S S' gt k : forall (m : smodel X Y) (m' : smodel X' Y) sw sw' st,
  same m m' S S' -> same_switch sw sw' S S' ->
  match os_loop ceq solve prm (map fst S) (map snd S) gt k (base_bmodel m) (option_map base_bmodel sw) st,
        os_loop ceq solve prm (map fst S') (map snd S') gt k (base_bmodel m') (option_map base_bmodel sw') st with
  | Ok (s, r, bm), Ok (s', r', bm') => s = s' /\ r = r' /\ exists mm mm', bm = base_bmodel mm /\ bm' = base_bmodel mm' /\ same mm mm' S S'
  | Err e, Err e' => e = e'
  | _, _ => False
  end.
Proof.
  induction k as [|k IH]; intros m m' sw sw' st H HW; cbn [os_loop]; [split; [|split]; eauto|].
  cbn [bm_s base_bmodel]. fold (base_bmodel m) (base_bmodel m'). rewrite !map_length, <- (len_eq m m' S S' (proj2 H)), <- (from_cache_eq prm m m' _ gt st (proj1 H)).
  destruct (from_cache prm m _ gt st) as [[c|]|]; [| |reflexivity]; cbn [bind].
  - destruct (os_step solve prm _ true c st) as [s|]; [|reflexivity]. cbn [bind]. apply IH; assumption.
  - assert (E := find_new_eq prm m m' S S' gt (o_w st) (o_slack st) (o_cons st) H). cbv zeta.
    change (BModel m _ _ _) with (base_bmodel m). rewrite <- E. clear E.
    destruct (find_new prm (base_bmodel m) _ _ gt _ _ _) as [[[Yh c]|]|] eqn:EF; [| |reflexivity]; cbn [bind].
    + rewrite <- (update_cache_eq ceq prm m m' S S' Yh (o_icache st) (find_new_usable prm m m' S S' gt _ _ _ Yh c H EF)).
      destruct (update_cache ceq prm m _ _ _ Yh) as [ca|]; [|reflexivity]. cbn [bind]. destruct (os_step solve prm _ false c _) as [s|]; [|reflexivity]. cbn [bind]. apply IH; assumption.
    + destruct sw as [m2|], sw' as [m2'|]; cbn in HW; try contradiction; cbn [option_map].
      * apply (IH m2 m2' None None); [exact HW|exact I].
      * split; [|split]; eauto.
Qed.
Lemma os_fit_eq ceq solve prm (m : smodel X Y) (m' : smodel X' Y) sw sw' S S' ws : same m m' S S' -> same_switch sw sw' S S' ->
  os_fit ceq solve prm (base_bmodel m) (option_map base_bmodel sw) (map fst S) (map snd S) ws =
  os_fit ceq solve prm (base_bmodel m') (option_map base_bmodel sw') (map fst S') (map snd S') ws.
Proof.
  intros H HW. unfold os_fit. change (bm_s (base_bmodel m)) with m. change (bm_s (base_bmodel m')) with m'. rewrite <- (proj1 (proj1 H)), <- (proj2 (proj1 H)).
  destruct (os_start prm (sm_size m) ws) as [st|]; [|reflexivity]. cbn [bind].
  rewrite (batch_joint m m' (proj1 H) S S' (map snd S) _ (usables_truth m m' S S' (proj2 H)) (rescale_eq m S)), <- (snd_eq m m' S S' (proj2 H)).
  destruct (bm_joint (base_bmodel m') _ _ _) as [gt|]; [|reflexivity]. cbn [bind].
  assert (Q := os_loop_eq ceq solve prm S S' gt (o_max_iter prm) m m' sw sw' st H HW). rewrite (snd_eq m m' S S' (proj2 H)) in Q |- *.
  destruct (os_loop ceq solve prm (map fst S) _ _ _ _ _ _) as [[[s r] bm]|e], (os_loop ceq solve prm (map fst S') _ _ _ _ _ _) as [[[s' r'] bm']|e'];
    try contradiction; cbn [bind]; [|congruence].
  destruct Q as (<- & <- & mm & mm' & -> & -> & [HS2 H2]). change (bm_s (base_bmodel mm)) with mm. change (bm_s (base_bmodel mm')) with mm'.
  assert (P := primal_eq mm mm' HS2 S S' (o_w s) (o_C prm) OneSlack H2). rewrite (snd_eq mm mm' S S' H2) in P. rewrite P. reflexivity.
Qed.
End Cutting.
