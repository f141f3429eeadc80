(** Two nodes joined by an edge with one symmetric feature; all working sets of the only sample. *)
From Verif Require Import Spec.MoreTasks Model.MoreInstances Spec.CuttingPlaneSpec Spec.SpanSpec Spec.SolverSpec Proofs.Arrays
  Proofs.LossProofs Proofs.QPProofs Proofs.QPProofs2 Proofs.TableSolver Proofs.EndToEnd.

Definition ex27_g := EFCRF 2 1 1 [0%nat] [].
Definition ex27_x : ef_x := EFX (Mat 2 1 [[1]; [- (1)]]) [(0, 1)]%nat (Mat 1 1 [[1]]).
Definition ex27_y : list nat := [1; 0]%nat.
Definition ex27_cw : list Qc := [1; 1].
Definition ex27_C : Qc := Q2Qc (1 # 16).
Definition ex27_task := ef_task ex27_g ex27_cw.
Definition ex27_con (y : list nat) : list nat * list Qc * Qc :=
  (y, vsub (t_feat ex27_task ex27_x ex27_y) (t_feat ex27_task ex27_x y), t_loss ex27_task ex27_y y).
(** ordered selections without repetition *)
Definition ex27_wrong : list (list nat) := [[0; 1]; [0; 0]; [1; 1]]%nat.
Fixpoint picks (k : nat) : list (list (list nat)) :=
  match k with
  | O => [[]]
  | S k => flat_map (fun l => map (fun y => y :: l) (filter (fun y => negb (existsb (labels_eqb y) l)) ex27_wrong)) (picks k)
  end.
Definition ex27_sets : list (list (list nat)) := picks 1 ++ picks 2 ++ picks 3.
Definition units (n : nat) : list (list Qc) :=
  flat_map (fun i => map (fun j => tab1 n (fun c => (ind (c =? i)%nat + ind (c =? j)%nat) * ex27_C / (1 + 1))) (seq 0 n)) (seq 0 n).
Definition ex27_table := flat_map (fun l => map (fun a => ([map (fun y => ncon_pair (ex27_con y)) l], a)) (units (length l))) ex27_sets.
Definition ex27_solver := table_solver (ef_size ex27_g) ex27_C 1 ex27_table.

Lemma picks_complete : forall k L, NoDup L -> incl L ex27_wrong -> length L = k -> In L (picks k).
Proof.
  induction k as [|k IH]; intros [|y L] HN HI HL; try discriminate; [left; reflexivity|].
  injection HL as HL. inversion HN; subst. cbn [picks]. apply in_flat_map. exists L. split.
  - apply IH; auto. intros a Ha. apply HI. right. exact Ha.
  - apply in_map_iff. exists y. split; [reflexivity|]. apply filter_In. split; [apply HI; left; reflexivity|].
    destruct (existsb (labels_eqb y) L) eqn:E; [|reflexivity]. apply existsb_exists in E. destruct E as [z [Hz E]].
    apply labels_eqb_eq in E. subst z. contradiction.
Qed.
Definition ex27_groups (l : list (list nat)) : list (list (list Qc * Qc)) := [map (fun y => ncon_pair (ex27_con y)) l].
Lemma ex27_table_answers : forallb (fun l => match nslack_of ex27_C None 1 (ex27_groups l) 0 with
  | Ok p => match ex27_solver p with Some _ => true | None => false end | Err _ => true end) ex27_sets = true.
Proof. vm_compute. reflexivity. Qed.
Lemma ex27_answers : answers_all ex27_solver ex27_C 1 ex27_task [(ex27_x, ex27_y)].
Proof.
  intros cs p HW HP. unfold working_set in HW. inversion HW as [|s c ? ? [V [P N]] HW' E1 E2]; subst. inversion HW'; subst. clear HW HW'.
  set (L := map (fun e : list nat * list Qc * Qc => fst (fst e)) c) in *.
  assert (EC : c = map ex27_con L).
  { unfold L. rewrite map_map. clear - V. induction V as [|e c VE V IH]; [reflexivity|]. cbn [map]. f_equal; [|exact IH].
    destruct e as [[yh dl] l]. destruct VE as [A [B D]]. cbn [fst snd] in *. unfold ex27_con. congruence. }
  assert (HI : incl L ex27_wrong).
  { intros y Hy. unfold L in Hy. apply in_map_iff in Hy. destruct Hy as [e [<- He]]. rewrite Forall_forall in V, P. specialize (V e He). specialize (P e He).
    destruct e as [[yh dl] l]. destruct V as [[Ll Fl] [_ D]]. cbn [fst snd] in D, P, Ll, Fl |- *. cbn [ex27_x ex27_g mrows ef_states ex_features] in Ll, Fl.
    destruct yh as [|a [|b [|? ?]]]; try discriminate Ll. assert (Ha := Forall_inv Fl). assert (Hb := Forall_inv (Forall_inv_tail Fl)). cbv beta in Ha, Hb.
    destruct a as [|[|a]]; [| |lia]; (destruct b as [|[|b]]; [| |lia]); unfold ex27_wrong; cbn [In]; auto.
    exfalso. rewrite D in P. revert P. apply Qcle_not_lt. apply Qceq_le. apply Qc_is_canon. vm_compute. reflexivity. }
  destruct c as [|c0 c']; [discriminate HP|]. 
  assert (B : (length L <= 3)%nat) by (apply (NoDup_incl_length N HI)).
  assert (HS : In L ex27_sets).
  { unfold ex27_sets. destruct (length L) as [|[|[|[|k]]]] eqn:EL; [discriminate EL| | | |lia];
      assert (G := picks_complete _ L N HI EL); rewrite !in_app_iff; auto. }
  assert (T := ex27_table_answers). rewrite forallb_forall in T. specialize (T L HS).
  assert (EP : nslack_of ex27_C None 1 (ex27_groups L) 0 = Ok p).
  { rewrite <- HP. unfold nslack_of, ex27_groups. rewrite EC. cbn [map concat]. rewrite !app_nil_r, !map_map, !map_length. reflexivity. }
  rewrite EP in T. destruct (ex27_solver p); [discriminate|discriminate T].
Qed.
Definition ex27_prm := NSParams ex27_C 5 0 true false None (-1) (Q2Qc (1 # 1000)) 0.
