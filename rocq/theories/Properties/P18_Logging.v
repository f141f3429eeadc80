(** C45: SaveLogger (pystruct/utils/logging.py). *)
From Coq Require Import String Ascii ZArith DecimalString.
From Verif Require Import Model.Logging Spec.LoggingSpec Proofs.LoggingProofs Proofs.LoggingExamples.

(** ** when *)
(** a call that is not due changes nothing: no file, no attribute of the learner, no exception *)
Theorem C45_not_due : forall {R C B} (dump : learner R C -> list B * option exn) can_open lg z (w : world R C B),
  sl_every lg <> 0%Z -> ~ due (sl_every lg) (Iter z) -> call dump can_open lg (Iter z) w = ([w], None).
Proof.
  intros R C B dump can_open lg z w N D. apply call_not_due; [exact N|]. intro H. apply D. right. exists z. auto.
Qed.
(** a call that is due writes: with a name without "%d" the bytes of pickle are in the file *)
Theorem C45_due : forall {R C B} (dump : learner R C -> list B * option exn) can_open lg i (w : world R C B) bs,
  due (sl_every lg) i -> has_percent_d (sl_file lg) = false -> can_open (sl_file lg) = None ->
  dump (match l_cache (w_learner w) with None => w_learner w | Some _ => Learner (l_rest (w_learner w)) (Some None) end) = (bs, None) ->
  let tr := call dump can_open lg i w in
  snd tr = None /\
  (w_files (last (fst tr) w)) (sl_file lg) = Some bs /\
  (forall m, m <> sl_file lg -> w_files (last (fst tr) w) m = w_files w m) /\
  w_learner (last (fst tr) w) = w_learner w.
Proof.
  intros R C B dump can_open lg i w bs D P O H tr. unfold tr. rewrite (call_due dump can_open lg i w D). unfold target. rewrite P.
  assert (G : dump (stripped (w_learner w)) = (bs, None)) by (unfold stripped; destruct (l_cache (w_learner w)); exact H).
  destruct (save_ok dump can_open (sl_file lg) w bs O G) as [A E]. rewrite E. split; [exact A|].
  split; [apply set_file_same|]. split; [intros m Hm; apply set_file_other; exact Hm|reflexivity].
Qed.
Example C45_due_example : snd (call ex18_dump ex18_open (SaveLogger "model" 10) (Iter 20) ex18_world) = None /\
  w_files (last (fst (call ex18_dump ex18_open (SaveLogger "model" 10) (Iter 20) ex18_world)) ex18_world) "model"%string = Some [7; 1; 5]%nat /\
  call ex18_dump ex18_open (SaveLogger "model" 10) (Iter 25) ex18_world = ([ex18_world], None) /\
  due 10 (Iter 20) /\ ~ due 10 (Iter 25) /\ due 10 Final.
Proof.
  split; [vm_compute; reflexivity|]. split; [vm_compute; reflexivity|]. split; [vm_compute; reflexivity|]. split; [|split].
  - right. exists 20%Z. split; [reflexivity|]. split; [discriminate|]. exists 2%Z. reflexivity.
  - intros [H|[z [E [_ [k K]]]]]; [discriminate H|]. injection E as <-. lia.
  - left. reflexivity.
Qed.
(** save_every = 0 *)
Theorem C45_every_zero : forall {R C B} (dump : learner R C -> list B * option exn) can_open lg z (w : world R C B),
  sl_every lg = 0%Z -> call dump can_open lg (Iter z) w = ([w], Some ZeroDivisionError).
Proof. exact @call_every_0. Qed.

(** ** what *)
(** a saved learner is loaded back equal, except that its cache is None *)
Theorem C45_loadable : forall {R C B} (dump : learner R C -> list B * option exn) undump can_open lg i (w : world R C B),
  (forall l, exists bs, dump l = (bs, None) /\ undump bs = Ok l) ->
  due (sl_every lg) i -> has_percent_d (sl_file lg) = false -> can_open (sl_file lg) = None ->
  let w' := last (fst (call dump can_open lg i w)) w in
  load undump lg (w_files w') =
    Ok (Learner (l_rest (w_learner w)) (match l_cache (w_learner w) with None => None | Some _ => Some None end)) /\
  w_learner w' = w_learner w.
Proof.
  intros R C B dump undump can_open lg i w RT D P O w'.
  destruct (RT (match l_cache (w_learner w) with None => w_learner w | Some _ => Learner (l_rest (w_learner w)) (Some None) end)) as [bs [H U]].
  destruct (C45_due dump can_open lg i w bs D P O H) as [_ [A [_ E]]]. fold w' in A, E. split; [|exact E].
  unfold load. rewrite A, U. destruct (w_learner w) as [r [c|]]; reflexivity.
Qed.
Example C45_loadable_example : (forall l, exists bs, ex18_dump l = (bs, None) /\ ex18_undump bs = Ok l) /\
  load ex18_undump (SaveLogger "model" 10) (w_files (last (fst (call ex18_dump ex18_open (SaveLogger "model" 10) Final ex18_world)) ex18_world))
    = Ok (Learner 5%nat (Some None)) /\
  load ex18_undump (SaveLogger "model" 10) (w_files ex18_world) = Ok (Learner 3%nat (Some None)).
Proof. split; [exact ex18_roundtrip|]. split; vm_compute; reflexivity. Qed.

(** ** failures *)
(** pickle raises after some bytes: the exception reaches the caller, the file holds just those
    bytes instead of the model saved before, and the learner's inference cache is gone *)
Theorem C45_dump_failure : forall {R C B} (dump : learner R C -> list B * option exn) can_open lg i (w : world R C B) bs e,
  due (sl_every lg) i -> has_percent_d (sl_file lg) = false -> can_open (sl_file lg) = None ->
  dump (match l_cache (w_learner w) with None => w_learner w | Some _ => Learner (l_rest (w_learner w)) (Some None) end) = (bs, Some e) ->
  let tr := call dump can_open lg i w in
  snd tr = Some e /\
  w_files (last (fst tr) w) (sl_file lg) = Some bs /\
  l_rest (w_learner (last (fst tr) w)) = l_rest (w_learner w) /\
  l_cache (w_learner (last (fst tr) w)) = match l_cache (w_learner w) with None => None | Some _ => Some None end.
Proof.
  intros R C B dump can_open lg i w bs e D P O H tr. unfold tr. rewrite (call_due dump can_open lg i w D). unfold target. rewrite P.
  assert (G : dump (stripped (w_learner w)) = (bs, Some e)) by (unfold stripped; destruct (l_cache (w_learner w)); exact H).
  destruct (save_fail dump can_open (sl_file lg) w bs e O G) as [A E]. rewrite E. split; [exact A|].
  split; [apply set_file_same|]. cbn [w_learner]. unfold stripped. destruct (w_learner w) as [r [c|]]; split; reflexivity.
Qed.
(** hence "a failed save leaves the previous model on disk and the learner as it was" is false *)
Theorem C45_failure_harmless_refuted : ~ forall (dump : learner nat nat -> list nat * option exn) can_open lg i (w : world nat nat nat),
  snd (call dump can_open lg i w) <> None -> last (fst (call dump can_open lg i w)) w = w.
Proof.
  intro H. specialize (H ex18_bad_dump ex18_open (SaveLogger "model" 10) Final ex18_world).
  assert (Q : snd (call ex18_bad_dump ex18_open (SaveLogger "model" 10) Final ex18_world) <> None) by (vm_compute; discriminate).
  specialize (H Q). apply (f_equal (fun v => l_cache (w_learner v))) in H. vm_compute in H. discriminate H.
Qed.
Example C45_failure_example : snd (call ex18_bad_dump ex18_open (SaveLogger "model" 10) Final ex18_world) = Some TypeError /\
  w_files (last (fst (call ex18_bad_dump ex18_open (SaveLogger "model" 10) Final ex18_world)) ex18_world) "model"%string = Some [7]%nat /\
  w_files ex18_world "model"%string = Some [7; 1; 3]%nat /\
  w_learner (last (fst (call ex18_bad_dump ex18_open (SaveLogger "model" 10) Final ex18_world)) ex18_world) = Learner 5%nat (Some None).
Proof. repeat split. Qed.
(** a file that cannot be opened leaves everything as it was *)
Theorem C45_open_failure : forall {R C B} (dump : learner R C -> list B * option exn) can_open lg i (w : world R C B) e,
  due (sl_every lg) i -> has_percent_d (sl_file lg) = false -> can_open (sl_file lg) = Some e ->
  call dump can_open lg i w = ([w], Some e).
Proof.
  intros R C B dump can_open lg i w e D P O. rewrite (call_due dump can_open lg i w D). unfold target. rewrite P. apply save_no_open. exact O.
Qed.

(** ** crash points *)
(** whatever moment the process dies: the world is as before, or the file holds some beginning of
    the new pickle, every other file is intact, and the learner has lost at most its cache *)
Theorem C45_crash_states : forall {R C B} (dump : learner R C -> list B * option exn) can_open lg i (w w' : world R C B) bs o,
  dump (match l_cache (w_learner w) with None => w_learner w | Some _ => Learner (l_rest (w_learner w)) (Some None) end) = (bs, o) ->
  In w' (fst (call dump can_open lg i w)) ->
  w' = w \/
  exists name k, (if has_percent_d (sl_file lg) then format (sl_file lg) i else Ok (sl_file lg)) = Ok name /\ due (sl_every lg) i /\
    w_files w' name = Some (firstn k bs) /\
    (forall m, m <> name -> w_files w' m = w_files w m) /\
    l_rest (w_learner w') = l_rest (w_learner w) /\
    (w_learner w' = w_learner w \/ l_cache (w_learner w) <> None /\ l_cache (w_learner w') = Some None).
Proof.
  intros R C B dump can_open lg i w w' bs o H I.
  assert (G : dump (stripped (w_learner w)) = (bs, o)) by (unfold stripped; destruct (l_cache (w_learner w)); exact H).
  exact (call_states dump can_open lg i w w' bs o G I).
Qed.
(** and every such beginning does occur, so saving is not atomic: there is a moment at which the
    file holds neither the old nor the new model *)
Theorem C45_atomic_refuted : forall {R C B} (dump : learner R C -> list B * option exn) can_open lg i (w : world R C B) old b bs o,
  due (sl_every lg) i -> has_percent_d (sl_file lg) = false -> can_open (sl_file lg) = None ->
  dump (match l_cache (w_learner w) with None => w_learner w | Some _ => Learner (l_rest (w_learner w)) (Some None) end) = (b :: bs, o) ->
  w_files w (sl_file lg) = Some old -> old <> [] ->
  (exists w', In w' (fst (call dump can_open lg i w)) /\
    w_files w' (sl_file lg) <> Some old /\ w_files w' (sl_file lg) <> Some (b :: bs)) /\
  forall k, (k <= length (b :: bs))%nat -> exists w', In w' (fst (call dump can_open lg i w)) /\ w_files w' (sl_file lg) = Some (firstn k (b :: bs)).
Proof.
  intros R C B dump can_open lg i w old b bs o D P O H F N.
  assert (G : dump (stripped (w_learner w)) = (b :: bs, o)) by (unfold stripped; destruct (l_cache (w_learner w)); exact H).
  assert (A : forall k, (k <= length (b :: bs))%nat -> exists w', In w' (fst (call dump can_open lg i w)) /\ w_files w' (sl_file lg) = Some (firstn k (b :: bs))).
  { intros k Hk. rewrite (call_due dump can_open lg i w D). unfold target. rewrite P. eexists. split; [exact (save_reaches dump can_open _ w _ o k O G Hk)|]. apply set_file_same. }
  split; [|exact A]. destruct (A 0%nat ltac:(lia)) as [w' [I E]]. exists w'. split; [exact I|]. rewrite E. cbn [firstn]. split; [congruence|discriminate].
Qed.
Example C45_crash_example : w_files ex18_world "model"%string = Some [7; 1; 3]%nat /\
  map (fun v => w_files v "model"%string) (fst (call ex18_dump ex18_open (SaveLogger "model" 10) (Iter 0) ex18_world)) =
    [Some [7; 1; 3]; Some []; Some []; Some [7]; Some [7; 1]; Some [7; 1; 5]; Some [7; 1; 5]]%nat /\
  load ex18_undump (SaveLogger "model" 10) (set_file "model" [7; 1]%nat ex18_files) = Err OtherException.
Proof. repeat split. Qed.

(** ** numbered files *)
(** one "%d": the iteration in decimal; two iterations never share a file; 'final' is a TypeError
    that leaves files and learner alone *)
Theorem C45_names : forall pre post a b, plain pre = true -> plain post = true ->
  format (append pre (append "%d" post)) (Iter a) = Ok (append pre (append (str_int a) post)) /\
  (format (append pre (append "%d" post)) (Iter a) = format (append pre (append "%d" post)) (Iter b) -> a = b) /\
  NilZero.int_of_string (str_int a) = Some (Z.to_int a).
Proof.
  intros pre post a b H1 H2. split; [exact (proj1 (format_one pre post a H1 H2))|]. split; [|apply str_int_back].
  rewrite (proj1 (format_one pre post a H1 H2)), (proj1 (format_one pre post b H1 H2)). intro E. injection E as E.
  apply str_int_inj. exact (app_cancel_r _ _ _ (app_cancel_l _ _ _ E)).
Qed.
Theorem C45_final_typeerror : forall {R C B} (dump : learner R C -> list B * option exn) can_open pre post every (w : world R C B),
  plain pre = true -> plain post = true ->
  call dump can_open (SaveLogger (append pre (append "%d" post)) every) Final w = ([w], Some TypeError).
Proof.
  intros R C B dump can_open pre post every w H1 H2. rewrite call_due by (left; reflexivity). unfold target. cbn [sl_file]. rewrite has_d.
  rewrite (proj2 (format_one pre post 0 H1 H2)). reflexivity.
Qed.
(** and [load] opens the template itself, a file no call ever writes *)
Theorem C45_template_not_written : forall {R C B} (dump : learner R C -> list B * option exn) can_open (undump : list B -> res (learner R C)) pre post every i (w w' : world R C B),
  plain pre = true -> plain post = true -> let lg := SaveLogger (append pre (append "%d" post)) every in
  In w' (fst (call dump can_open lg i w)) -> load undump lg (w_files w') = load undump lg (w_files w).
Proof. exact @template_not_written. Qed.
Example C45_names_example : format "svm_%d.pickle" (Iter 120) = Ok "svm_120.pickle"%string /\
  format "svm_%d.pickle" Final = Err TypeError /\ has_percent_d "svm_%%d" = true /\ format "svm_%%d" (Iter 3) = Err TypeError /\
  format "%d_%s" (Iter 3) = Err TypeError /\ format "50%_%d" (Iter 3) = Err OtherException /\
  plain "svm_" = true /\ plain ".pickle" = true /\ "svm_%d.pickle"%string = append "svm_" (append "%d" ".pickle").
Proof. repeat split. Qed.

(** ** whole training runs: iterations start, start+1, ... and then 'final' *)
(** numbered: exactly the due iterations leave a file with the learner of that iteration, no other
    file changes, and the run ends with TypeError *)
Theorem C45_run_numbered : forall {R C B} (dump : learner R C -> list B * option exn) can_open pre post every (ls : list (learner R C)) out,
  plain pre = true -> plain post = true -> every <> 0%Z -> (forall n, can_open n = None) ->
  Forall2 (fun l bs => dump (match l_cache l with None => l | Some _ => Learner (l_rest l) (Some None) end) = (bs, None)) ls out ->
  forall start final_learner f,
  let name z := append pre (append (str_int z) post) in
  exists f', calls dump can_open (SaveLogger (append pre (append "%d" post)) every)
      (combine (map (fun k => Iter (start + Z.of_nat k)) (seq 0 (length ls))) ls ++ [(Final, final_learner)]) f = (f', Some TypeError) /\
    (forall k, (k < length ls)%nat -> f' (name (start + Z.of_nat k)%Z) =
       if ((start + Z.of_nat k) mod every =? 0)%Z then Some (nth k out []) else f (name (start + Z.of_nat k)%Z)) /\
    (forall m, (forall k, (k < length ls)%nat -> m <> name (start + Z.of_nat k)%Z) -> f' m = f m).
Proof. exact @run_numbered. Qed.
(** one file: after the run it holds the final learner *)
Theorem C45_run_single : forall {R C B} (dump : learner R C -> list B * option exn) can_open name every (ls : list (learner R C)) out,
  has_percent_d name = false -> every <> 0%Z -> can_open name = None ->
  Forall2 (fun l bs => dump (match l_cache l with None => l | Some _ => Learner (l_rest l) (Some None) end) = (bs, None)) ls out ->
  forall (iters : list Z) final_learner final_bytes f, length iters = length ls ->
  dump (match l_cache final_learner with None => final_learner | Some _ => Learner (l_rest final_learner) (Some None) end) = (final_bytes, None) ->
  exists f', calls dump can_open (SaveLogger name every) (combine (map Iter iters) ls ++ [(Final, final_learner)]) f = (f', None) /\
    f' name = Some final_bytes /\ forall m, m <> name -> f' m = f m.
Proof. exact @run_single. Qed.
Example C45_run_example :
  let ls := [Learner 1 None; Learner 2 None; Learner 3 None; Learner 4 None]%nat in
  let run pat := calls ex18_dump ex18_open (SaveLogger pat 2) (combine (map Iter [0; 1; 2; 3]%Z) ls ++ [(Final, Learner 9%nat None)]) (fun _ => None) in
  snd (run "m%d"%string) = Some TypeError /\ map (fst (run "m%d"%string)) ["m0"; "m1"; "m2"; "m3"; "m%d"]%string = [Some [7; 0; 1]%nat; None; Some [7; 0; 3]%nat; None; None] /\
  snd (run "m"%string) = None /\ fst (run "m"%string) "m"%string = Some [7; 0; 9]%nat.
Proof. repeat split. Qed.
Print Assumptions C45_not_due.
Print Assumptions C45_due.
Print Assumptions C45_every_zero.
Print Assumptions C45_loadable.
Print Assumptions C45_dump_failure.
Print Assumptions C45_failure_harmless_refuted.
Print Assumptions C45_open_failure.
Print Assumptions C45_crash_states.
Print Assumptions C45_atomic_refuted.
Print Assumptions C45_names.
Print Assumptions C45_final_typeerror.
Print Assumptions C45_template_not_written.
Print Assumptions C45_run_numbered.
Print Assumptions C45_run_single.
