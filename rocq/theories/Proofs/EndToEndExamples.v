(** A chain of two nodes with two labels; all working sets of its only sample. *)
From Verif Require Import Spec.MoreTasks Model.MoreInstances Spec.CuttingPlaneSpec Spec.SpanSpec Spec.SolverSpec Proofs.Arrays
  Proofs.LossProofs Proofs.QPProofs Proofs.QPProofs2 Proofs.TableSolver Proofs.EndToEnd.

Definition ex26_g := GraphCRF 2 1 false.
Definition ex26_x : mat := Mat 2 1 [[1]; [- (1)]].
Definition ex26_y : list nat := [1; 0]%nat.
Definition ex26_cw : list Qc := [1; 1].
Definition ex26_C : Qc := Q2Qc (1 # 16).
Definition ex26_task := chain_task ex26_g ex26_cw.
Definition ex26_con (y : list nat) : list nat * list Qc * Qc :=
  (y, vsub (t_feat ex26_task ex26_x ex26_y) (t_feat ex26_task ex26_x y), t_loss ex26_task ex26_y y).
(** ordered selections without repetition *)
Definition ex26_wrong : list (list nat) := [[0; 1]; [0; 0]; [1; 1]]%nat.
Fixpoint picks (k : nat) : list (list (list nat)) :=
  match k with
  | O => [[]]
  | S k => flat_map (fun l => map (fun y => y :: l) (filter (fun y => negb (existsb (labels_eqb y) l)) ex26_wrong)) (picks k)
  end.
Definition ex26_sets : list (list (list nat)) := picks 1 ++ picks 2 ++ picks 3.
Definition units (n : nat) : list (list Qc) :=
  flat_map (fun i => map (fun j => tab1 n (fun c => (ind (c =? i)%nat + ind (c =? j)%nat) * ex26_C / (1 + 1))) (seq 0 n)) (seq 0 n).
Definition ex26_table := flat_map (fun l => map (fun a => ([map (fun y => ncon_pair (ex26_con y)) l], a)) (units (length l))) ex26_sets.
Definition ex26_solver := table_solver (g_size ex26_g) ex26_C 1 ex26_table.

Lemma picks_complete : forall k L, NoDup L -> incl L ex26_wrong -> length L = k -> In L (picks k).
Proof.
  induction k as [|k IH]; intros [|y L] HN HI HL; try discriminate; [left; reflexivity|].
  injection HL as HL. inversion HN; subst. cbn [picks]. apply in_flat_map. exists L. split.
  - apply IH; auto. intros a Ha. apply HI. right. exact Ha.
  - apply in_map_iff. exists y. split; [reflexivity|]. apply filter_In. split; [apply HI; left; reflexivity|].
    destruct (existsb (labels_eqb y) L) eqn:E; [|reflexivity]. apply existsb_exists in E. destruct E as [z [Hz E]].
    apply labels_eqb_eq in E. subst z. contradiction.
Qed.
Definition ex26_groups (l : list (list nat)) : list (list (list Qc * Qc)) := [map (fun y => ncon_pair (ex26_con y)) l].
Lemma ex26_table_answers : forallb (fun l => match nslack_of ex26_C None 1 (ex26_groups l) 0 with
  | Ok p => match ex26_solver p with Some _ => true | None => false end | Err _ => true end) ex26_sets = true.
Proof. vm_compute. reflexivity. Qed.
Lemma ex26_answers : answers_all ex26_solver ex26_C 1 ex26_task [(ex26_x, ex26_y)].
Proof.
  intros cs p HW HP. unfold working_set in HW. inversion HW as [|s c ? ? [V [P N]] HW' E1 E2]; subst. inversion HW'; subst. clear HW HW'.
  set (L := map (fun e : list nat * list Qc * Qc => fst (fst e)) c) in *.
  assert (EC : c = map ex26_con L).
  { unfold L. rewrite map_map. clear - V. induction V as [|e c VE V IH]; [reflexivity|]. cbn [map]. f_equal; [|exact IH].
    destruct e as [[yh dl] l]. destruct VE as [A [B D]]. cbn [fst snd] in *. unfold ex26_con. congruence. }
  assert (HI : incl L ex26_wrong).
  { intros y Hy. unfold L in Hy. apply in_map_iff in Hy. destruct Hy as [e [<- He]]. rewrite Forall_forall in V, P. specialize (V e He). specialize (P e He).
    destruct e as [[yh dl] l]. destruct V as [[Ll Fl] [_ D]]. cbn [fst snd] in D, P, Ll, Fl |- *. cbn [ex26_x ex26_g mrows g_states] in Ll, Fl.
    destruct yh as [|a [|b [|? ?]]]; try discriminate Ll. assert (Ha := Forall_inv Fl). assert (Hb := Forall_inv (Forall_inv_tail Fl)). cbv beta in Ha, Hb.
    destruct a as [|[|a]]; [| |lia]; (destruct b as [|[|b]]; [| |lia]); unfold ex26_wrong; cbn [In]; auto.
    exfalso. rewrite D in P. revert P. apply Qcle_not_lt. apply Qceq_le. apply Qc_is_canon. vm_compute. reflexivity. }
  destruct c as [|c0 c']; [discriminate HP|]. 
  assert (B : (length L <= 3)%nat) by (apply (NoDup_incl_length N HI)).
  assert (HS : In L ex26_sets).
  { unfold ex26_sets. destruct (length L) as [|[|[|[|k]]]] eqn:EL; [discriminate EL| | | |lia];
      assert (G := picks_complete _ L N HI EL); rewrite !in_app_iff; auto. }
  assert (T := ex26_table_answers). rewrite forallb_forall in T. specialize (T L HS).
  assert (EP : nslack_of ex26_C None 1 (ex26_groups L) 0 = Ok p).
  { rewrite <- HP. unfold nslack_of, ex26_groups. rewrite EC. cbn [map concat]. rewrite !app_nil_r, !map_map, !map_length. reflexivity. }
  rewrite EP in T. destruct (ex26_solver p); [discriminate|discriminate T].
Qed.
Definition ex26_prm := NSParams ex26_C 5 0 true false None (-1) (Q2Qc (1 # 1000)) 0.
