(** What the recorded training curves should look like, and what their plot should show. *)
From Coq Require Import Sorted.
From Verif Require Export Base.QcBase Model.PlotLearning.

(** readings of a clock never decrease *)
Definition clock (now : nat -> Qc) : Prop := forall i j, (i <= j)%nat -> now i <= now j.

(** one time stamp per entry of objective_curve_, after the time of the start, and [extra] more;
    as many entries in the curves that exist; the last constraint entry is "not cached" *)
Definition curves_aligned (extra : nat) (b : book) : Prop :=
  exists ts o,
    b_times b = Some ts /\ b_obj b = Some o /\ length ts = (S (length o) + extra)%nat /\
    (forall p, b_primal b = Some p -> length p = length o) /\
    (forall c, b_cached b = Some c ->
       length c = length o /\ (exists p, b_primal b = Some p) /\ (c <> [] -> last c true = false)).

(** seconds since the start, in the order they were taken, none later than the next reading [k] *)
Definition stamps_ordered (now : nat -> Qc) (k : nat) (b : book) : Prop :=
  exists t0 ts,
    b_times b = Some (t0 :: ts) /\ t0 <= now k /\ StronglySorted Qcle ts /\
    Forall (fun t => 0 <= t /\ t <= now k - t0) ts.

(** nothing that was recorded is lost or changed *)
Definition prefix_of {A} (a b : option (list A)) : Prop :=
  match a with None => True | Some l => exists e, b = Some (l ++ e) end.
Definition book_grows (b b' : book) : Prop :=
  prefix_of (b_times b) (b_times b') /\ prefix_of (b_obj b) (b_obj b') /\
  prefix_of (b_primal b) (b_primal b') /\ prefix_of (b_cached b) (b_cached b') /\
  prefix_of (b_loss b) (b_loss b').

(** the logger is called with increasing iteration numbers below [max_iter] and finally with
    'final', when the learner is complete; every earlier call sees a part of the final record *)
Definition logged_in_order (max_iter : nat) (r : run) : Prop :=
  exists calls,
    r_log r = calls ++ [(None, r_book r)] /\
    (exists its, map fst calls = map Some its /\ StronglySorted lt its /\ Forall (fun i => (i < max_iter)%nat) its) /\
    Forall (fun c => book_grows (snd c) (r_book r)) calls.

(** one time stamp, and one value in the curves that exist, per entry of objective_curve_ *)
Definition lengths_agree (b : book) : Prop :=
  exists ts o,
    b_times b = Some ts /\ b_obj b = Some o /\ length ts = S (length o) /\
    (forall p, b_primal b = Some p -> length p = length o) /\ (forall c, b_cached b = Some c -> length c = length o).
Definition logs_agree (r : run) : Prop := Forall (fun c => fst c <> None -> lengths_agree (snd c)) (r_log r).

(** the iterations below [n] at which the training loss is due *)
Definition due (every n : nat) : list nat := filter (fun i => (i mod every =? 0)%nat) (seq 0 n).

(** a training loss for every due iteration; the last entry of objective_curve_ does not belong to
    an iteration *)
Definition losses_due (every : nat) (b : book) : Prop :=
  exists o, b_obj b = Some o /\
    match b_loss b with None => length o = 1%nat | Some ls => length ls = length (due every (length o - 1)) end.

(** where the entries of a curve with [n] entries are drawn: entry i at stamp i + 2, the last one
    at the last stamp *)
Definition minutes (ts : list Qc) (n : nat) : list Qc :=
  map (fun i => nth (Nat.min (i + 2) n) ts 0 / ofN 60) (seq 0 n).

(** the drawing of aligned curves over the x-coordinates [xs] *)
Definition draws (every : nat) (b : book) (xs : list Qc) (d : drawing) : Prop :=
  exists o,
    b_obj b = Some o /\
    d_iterations d = length o /\ d_objective d = nth (length o - 1) o 0 /\
    d_dual d = (xs, o) /\
    d_primal d = option_map (fun p => (xs, p)) (b_primal b) /\
    match b_cached b, b_primal b with
    | Some c, Some p =>
        (* the points of the iterations with inference, the last one among them *)
        let at_ := filter (fun i => negb (nth i c true)) (seq 0 (length o)) in
        d_inference d = Some (map (fun i => nth i xs 0) at_, map (fun i => nth i p 0) at_) /\
        d_gap d = Some (nth (length o - 1) p 0 - nth (length o - 1) o 0)
    | _, _ => d_inference d = None /\ d_gap d = None
    end /\
    match b_loss b with
    | None => d_error d = None
    | Some loss =>
        (* at the positions 0, every, 2 every, ... if there are as many of them as losses *)
        d_error d = Some (if negb (every =? 0)%nat && (length (due every (length o)) =? length loss)%nat
                          then (map (fun i => nth i xs 0) (due every (length o)), loss)
                          else (map ofN (seq 0 (length loss)), loss))
    end.
