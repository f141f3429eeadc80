(** Model of pystruct/learners/frankwolfe_ssvm.py (FrankWolfeSSVM).

    Not modelled: printing, time stamps, the logger, KeyboardInterrupt (Model/Interrupt.v), the constructor's check
    of sample_method.  The random generator is the parameter [sched]: [sched it] is the array
    perm of iteration [it] (lines 214-218), whatever the sample_method.  The model object is
    already initialised. *)
From Verif Require Export Model.Learner Model.OneSlack.

Record fw_params := FWParams {
  fw_C : Qc; fw_max_iter : nat; fw_tol : Qc; fw_batch : bool; fw_line : bool;
  fw_check : nat; fw_avg : bool }.

(** eps = 1e-15 *)
Definition fw_eps : Qc := Q2Qc (1 # 1000000000000000).
(** max(0.0, min(1.0, gamma)) *)
Definition clip01 (g : Qc) : Qc := Qcmax 0 (Qcmin 1 g).
(** (1 - g) * a + g * b on arrays *)
Definition vmix (g : Qc) (a b : list Qc) : list Qc := vadd (vscale (1 - g) a) (vscale g b).
Definition mix (g a b : Qc) : Qc := (1 - g) * a + g * b.
(** -0.5 * np.sum(w ** 2) + l * (n_samples * C) *)
Definition fw_dual (C : Qc) (n : nat) (w : list Qc) (l : Qc) : Qc :=
  - (normsq w / (1 + 1)) + l * (ofN n * C).

(** [_calc_dual_gap], lines 129-144 *)
Definition calc_dual_gap {X Y} (C : Qc) (bm : bmodel X Y) (Xs : list X) (Ys : list Y) (w : list Qc) (l : Qc)
  : res (Qc * Qc * Qc) :=
  let! gt := bm_joint bm Xs Ys (Some Ys) in
  let! Yh := bm_laug bm Xs Ys w in
  let! f := bm_joint bm Xs Yh None in
  let! dj := np_vsub gt f in
  let! ls := bm_loss bm Ys Yh in
  let ws := vscale C dj in
  let l_rescaled := l * ofN (length Xs) * C in
  let dual_val := - (normsq w / (1 + 1)) + l_rescaled in
  let! w_diff := np_vsub w ws in
  let! d := np_dot w_diff w in
  let dual_gap := d - l_rescaled + lsum ls * C in
  Ok (dual_val, dual_gap, dual_val + dual_gap).

(** ** batch mode, lines 146-195 *)
Record fw_bstate := FWBState { fb_w : list Qc; fb_l : Qc; fb_primal : list Qc; fb_curve : list Qc }.
(** one iteration: new state, dual_gap *)
Definition fw_batch_step {X Y} (prm : fw_params) (bm : bmodel X Y) (Xs : list X) (Ys : list Y) (gt : list Qc)
           (it : nat) (st : fw_bstate) : res (fw_bstate * Qc) :=
  let n := ofN (length Xs) in
  let! Yh := bm_laug bm Xs Ys (fb_w st) in
  let! f := bm_joint bm Xs Yh None in
  let! dj := np_vsub gt f in
  let! losses := bm_loss bm Ys Yh in
  let! _ := ensure (negb (length losses =? 0)%nat) NonFinite in
  let ls := lsum losses / ofN (length losses) in
  let ws := vscale (fw_C prm) dj in
  let! w_diff := np_vsub (fb_w st) ws in
  let! _ := ensure (negb (Qceqb (fw_C prm * n) 0)) ZeroDivisionError in
  let! d := np_dot w_diff (fb_w st) in
  let dual_gap := 1 / (fw_C prm * n) * d - fb_l st + ls in
  let gamma := if fw_line prm then clip01 (dual_gap / (normsq w_diff / (fw_C prm * n) + fw_eps))
               else (1 + 1) / (ofN it + (1 + 1)) in
  let dual_val := fw_dual (fw_C prm) (length Xs) (fb_w st) (fb_l st) in
  let primal_val := dual_val + dual_gap * n * fw_C prm in
  Ok (FWBState (vmix gamma (fb_w st) ws) (mix gamma (fb_l st) ls)
        (fb_primal st ++ [primal_val]) (fb_curve st ++ [dual_val]), dual_gap).
Fixpoint fw_batch_loop {X Y} (prm : fw_params) (bm : bmodel X Y) (Xs : list X) (Ys : list Y) (gt : list Qc)
         (k it : nat) (st : fw_bstate) : res fw_bstate :=
  match k with
  | O => Ok st
  | S k' => let! r := fw_batch_step prm bm Xs Ys gt it st in
            if Qcltb (snd r) (fw_tol prm) then Ok (fst r)
            else fw_batch_loop prm bm Xs Ys gt k' (S it) (fst r)
  end.
(** [self.l] is not changed *)
Definition frank_wolfe_batch {X Y} (prm : fw_params) (bm : bmodel X Y) (Xs : list X) (Ys : list Y) (w : list Qc)
  : res fw_bstate :=
  let! gt := bm_joint bm Xs Ys (Some Ys) in
  fw_batch_loop prm bm Xs Ys gt (fw_max_iter prm) 0 (FWBState w 0 [] []).

(** ** block-coordinate mode, lines 197-268 *)
(** [fs_w], [fs_l]: local variables; [fs_self_w], [fs_self_l]: the attributes w and l *)
Record fw_state := FWState {
  fs_w : list Qc; fs_wmat : list (list Qc); fs_lmat : list Qc; fs_l : Qc; fs_k : nat;
  fs_self_w : list Qc; fs_self_l : Qc }.
(** l[i] = v *)
Fixpoint set_at {A} (i : nat) (v : A) (l : list A) : list A :=
  match l, i with
  | [], _ => []
  | _ :: r, O => v :: r
  | x :: r, S j => x :: set_at j v r
  end.
(** the update of sample i, lines 222-253 *)
Definition fw_step {X Y} (prm : fw_params) (m : smodel X Y) (Xs : list X) (Ys : list Y) (i : nat) (st : fw_state)
  : res fw_state :=
  let n := ofN (length Xs) in
  let! x := index Xs i in
  let! y := index Ys i in
  let! c := find_constraint m x y (fs_w st) None true in
  let '(_, delta, _, loss) := c in
  let ws := vscale (fw_C prm) delta in
  let ls := loss / n in
  let! wi := index (fs_wmat st) i in
  let! li := index (fs_lmat st) i in
  let! gamma := (if fw_line prm then
                   let! w_diff := np_vsub wi ws in
                   let! d := np_dot w_diff (fs_w st) in
                   Ok (clip01 ((d - fw_C prm * n * (li - ls)) / (normsq w_diff + fw_eps)))
                 else Ok ((1 + 1) * n / (ofN (fs_k st) + (1 + 1) * n))) in
  let! w1 := np_vsub (fs_w st) wi in
  let! _ := ensure (length wi =? length ws)%nat ValueError in
  let wi' := vmix gamma wi ws in
  let! w2 := np_vadd w1 wi' in
  let li' := mix gamma li ls in
  let l2 := fs_l st - li + li' in
  let rho := (1 + 1) / (ofN (fs_k st) + (1 + 1)) in
  Ok (FWState w2 (set_at i wi' (fs_wmat st)) (set_at i li' (fs_lmat st)) l2 (S (fs_k st))
        (if fw_avg prm then vmix rho (fs_self_w st) w2 else w2)
        (if fw_avg prm then mix rho (fs_self_l st) l2 else l2)).
Fixpoint fw_pass {X Y} (prm : fw_params) (m : smodel X Y) (Xs : list X) (Ys : list Y) (idx : list nat) (st : fw_state)
  : res fw_state :=
  match idx with
  | [] => Ok st
  | i :: r => let! st := fw_step prm m Xs Ys i st in fw_pass prm m Xs Ys r st
  end.
(** the loop over the iterations; [gap] is the local variable dual_gap.  Result: state,
    primal_objective_curve_, objective_curve_. *)
Fixpoint fw_bc_loop {X Y} (prm : fw_params) (bm : bmodel X Y) (Xs : list X) (Ys : list Y) (sched : nat -> list nat)
         (k it : nat) (st : fw_state) (gap : option Qc) (primal curve : list Qc)
  : res (fw_state * list Qc * list Qc) :=
  match k with
  | O => Ok (st, primal, curve)
  | S k' =>
      let! st := fw_pass prm (bm_s bm) Xs Ys (sched it) st in
      let! r := (if negb (fw_check prm =? 0)%nat && (it mod fw_check prm =? 0)%nat
                 then let! g := calc_dual_gap (fw_C prm) bm Xs Ys (fs_self_w st) (fs_self_l st) in
                      Ok (Some (snd (fst g)), primal ++ [snd g], curve ++ [fst (fst g)])
                 else Ok (gap, primal, curve)) in
      let '(gap, primal, curve) := r in
      match gap with
      | None => Err UnboundLocalError
      | Some g => if Qcltb g (fw_tol prm) then Ok (st, primal, curve)
                  else fw_bc_loop prm bm Xs Ys sched k' (S it) st gap primal curve
      end
  end.
Definition fw_bc_start (d n : nat) (w : list Qc) (l : Qc) : fw_state :=
  FWState w (repeat (vzero d) n) (vzero n) 0 0 w l.
Definition frank_wolfe_bc {X Y} (prm : fw_params) (bm : bmodel X Y) (Xs : list X) (Ys : list Y) (sched : nat -> list nat)
           (w : list Qc) (l : Qc) : res (fw_state * list Qc * list Qc) :=
  fw_bc_loop prm bm Xs Ys sched (fw_max_iter prm) 0 (fw_bc_start (sm_size (bm_s bm)) (length Xs) w l) None [] [].

(** [fit], lines 270-309.  [old]: the attributes w and l if they exist.
    Result: w, l, primal_objective_curve_, objective_curve_. *)
Definition fw_fit {X Y} (prm : fw_params) (bm : bmodel X Y) (Xs : list X) (Ys : list Y) (sched : nat -> list nat)
           (old : option (list Qc * Qc)) : res (list Qc * Qc * list Qc * list Qc) :=
  let '(w, l) := match old with Some o => o | None => (vzero (sm_size (bm_s bm)), 0) end in
  let! r := (if fw_batch prm
             then let! s := frank_wolfe_batch prm bm Xs Ys w in Ok (fb_w s, l, fb_primal s, fb_curve s)
             else let! s := frank_wolfe_bc prm bm Xs Ys sched w l in
                  let '(s, primal, curve) := s in Ok (fs_self_w s, fs_self_l s, primal, curve)) in
  let '(w, l, primal, curve) := r in
  let! p := objective_primal (bm_s bm) w Xs Ys (fw_C prm) NSlack in
  let! o := last_of curve in
  Ok (w, l, primal ++ [p], curve ++ [o]).
