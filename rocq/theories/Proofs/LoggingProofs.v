From Coq Require Import String Ascii ZArith DecimalString DecimalZ DecimalPos.
From Verif Require Import Model.Logging Spec.LoggingSpec.

Lemma set_file_same {B} n (c : list B) f : set_file n c f n = Some c.
Proof. unfold set_file. rewrite String.eqb_refl. reflexivity. Qed.
Lemma set_file_other {B} n (c : list B) f m : m <> n -> set_file n c f m = f m.
Proof. intro H. unfold set_file. destruct (String.eqb_spec m n); [contradiction|reflexivity]. Qed.

(** ** decimal numbers and templates *)
Lemma str_int_back z : NilZero.int_of_string (str_int z) = Some (Z.to_int z).
Proof.
  unfold str_int. apply NilZero.isi; destruct z as [|p|p]; try discriminate; simpl; intro H; injection H as H;
    exact (DecimalPos.Unsigned.to_uint_nonnil p H).
Qed.
Lemma str_int_inj a b : str_int a = str_int b -> a = b.
Proof. intro H. pose proof (str_int_back a) as A. rewrite H, str_int_back in A. injection A as A. symmetry. apply to_int_inj. exact A. Qed.
Lemma str_int_not_directive z : str_int z <> "%d"%string.
Proof. intro H. pose proof (str_int_back z) as A. rewrite H in A. discriminate A. Qed.

Lemma app_cancel_l a b c : append a b = append a c -> b = c.
Proof. induction a; simpl; intro H; [exact H|]. injection H as H. auto. Qed.
Lemma app_length_s a b : String.length (append a b) = (String.length a + String.length b)%nat.
Proof. induction a; simpl; auto. Qed.
Lemma app_cancel_r a b c : append a c = append b c -> a = b.
Proof.
  revert b. induction a as [|x a IH]; intros [|y b] H; simpl in H; auto.
  - exfalso. assert (L := f_equal String.length H). simpl in L. rewrite app_length_s in L. lia.
  - exfalso. assert (L := f_equal String.length H). simpl in L. rewrite app_length_s in L. lia.
  - injection H as -> H. f_equal. auto.
Qed.

Lemma format_plain i s t u : plain s = true ->
  format_loop i (append s t) u = let! q := format_loop i t u in Ok (append s (fst q), snd q).
Proof.
  revert u. induction s as [|c s IH]; intros u H.
  - simpl. destruct (format_loop i t u) as [[a b]|e]; reflexivity.
  - simpl in H. apply andb_true_iff in H. destruct H as [H1 H2]. apply negb_true_iff in H1. cbn [append format_loop]. rewrite H1, IH by exact H2.
    destruct (format_loop i t u) as [[a b]|e]; reflexivity.
Qed.
Lemma format_plain_end i s u : plain s = true -> format_loop i s u = Ok (s, u).
Proof.
  revert u. induction s as [|c s IH]; intros u H; [reflexivity|]. simpl in H. apply andb_true_iff in H. destruct H as [H1 H2]. apply negb_true_iff in H1.
  cbn [format_loop]. rewrite H1, IH by exact H2. reflexivity.
Qed.
Lemma format_one pre post z : plain pre = true -> plain post = true ->
  format (append pre (append "%d" post)) (Iter z) = Ok (append pre (append (str_int z) post)) /\
  format (append pre (append "%d" post)) Final = Err TypeError.
Proof.
  intros H1 H2. unfold format.
  split; rewrite format_plain by exact H1; change (append "%d" post) with (String percent (String "d" post)); cbn [format_loop];
  change (Ascii.eqb percent percent) with true; change (Ascii.eqb "d" percent) with false; cbv iota.
  - change (Ascii.eqb "d" "d") with true. cbv iota. cbn [render bind]. rewrite format_plain_end by exact H2. reflexivity.
  - reflexivity.
Qed.
Lemma has_d pre post : has_percent_d (append pre (append "%d" post)) = true.
Proof.
  induction pre as [|c pre IH].
  - destruct post; reflexivity.
  - change (append (String c pre) (append "%d" post)) with (String c (append pre (append "%d" post))). cbn [has_percent_d]. rewrite IH. apply orb_true_r.
Qed.
Lemma plain_no_d s : plain s = true -> has_percent_d s = false.
Proof.
  induction s as [|c s IH]; intro H; [reflexivity|]. simpl in H. apply andb_true_iff in H. destruct H as [H1 H2]. apply negb_true_iff in H1.
  cbn [has_percent_d]. rewrite IH by exact H2. rewrite orb_false_r. unfold prefix.
  destruct (ascii_dec "%" c) as [E|E]; [|reflexivity]. subst c. discriminate H1.
Qed.

Section Save.
  Context {R C B : Type}.
  Variables (dump : learner R C -> list B * option exn) (can_open : string -> option exn).

  (** the name used *)
  Definition target (lg : save_logger) (i : iteration) : res string :=
    if has_percent_d (sl_file lg) then format (sl_file lg) i else Ok (sl_file lg).

  Lemma call_due lg i (w : world R C B) : due (sl_every lg) i ->
    call dump can_open lg i w =
    match target lg i with Err e => ([w], Some e) | Ok name => save dump can_open name w end.
  Proof.
    intros [-> | [z [-> [N D]]]]; unfold call; [reflexivity|].
    apply Z.eqb_neq in N. rewrite N. apply Z.eqb_neq in N. apply (Z.mod_divide z _ N) in D. rewrite D. reflexivity.
  Qed.
  Lemma call_not_due lg z (w : world R C B) : sl_every lg <> 0%Z -> ~ (sl_every lg | z)%Z -> call dump can_open lg (Iter z) w = ([w], None).
  Proof.
    intros N D. unfold call. pose proof N as N'. apply Z.eqb_neq in N'. rewrite N'.
    destruct (Z.eqb_spec (z mod sl_every lg) 0) as [E|E]; [|reflexivity]. exfalso. apply D. apply (Z.mod_divide z _ N). exact E.
  Qed.
  Lemma call_every_0 lg z (w : world R C B) : sl_every lg = 0%Z -> call dump can_open lg (Iter z) w = ([w], Some ZeroDivisionError).
  Proof. intro E. unfold call. rewrite E. reflexivity. Qed.

  Lemma save_ok name (w : world R C B) bs : can_open name = None -> dump (stripped (w_learner w)) = (bs, None) ->
    snd (save dump can_open name w) = None /\
    last (fst (save dump can_open name w)) w = World (set_file name bs (w_files w)) (w_learner w).
  Proof.
    intros HO HD. unfold save. rewrite HO, HD. split; [reflexivity|]. cbn [fst].
    match goal with |- last (w :: ?o :: ?l ++ [?e]) w = _ => change (last (([w; o] ++ l) ++ [e]) w = e) end. apply last_last.
  Qed.
  Lemma save_fail name (w : world R C B) bs e : can_open name = None -> dump (stripped (w_learner w)) = (bs, Some e) ->
    snd (save dump can_open name w) = Some e /\
    last (fst (save dump can_open name w)) w = World (set_file name bs (w_files w)) (stripped (w_learner w)).
  Proof.
    intros HO HD. unfold save. rewrite HO, HD. split; [reflexivity|]. cbn [fst].
    rewrite seq_S, map_app. cbn [map Nat.add].
    match goal with |- last (w :: ?o :: ?l ++ [?e]) w = _ => change (last (([w; o] ++ l) ++ [e]) w = World (set_file name bs (w_files w)) (stripped (w_learner w))) end.
    rewrite last_last, firstn_all. reflexivity.
  Qed.
  Lemma save_no_open name (w : world R C B) e : can_open name = Some e -> save dump can_open name w = ([w], Some e).
  Proof. intro H. unfold save. rewrite H. reflexivity. Qed.

  (** every state on the way *)
  Lemma save_states name (w w' : world R C B) bs o : dump (stripped (w_learner w)) = (bs, o) ->
    In w' (fst (save dump can_open name w)) ->
    w' = w \/
    (exists k, (k <= length bs)%nat /\ w_files w' name = Some (firstn k bs)) /\
    (forall m, m <> name -> w_files w' m = w_files w m) /\
    (w_learner w' = w_learner w \/ w_learner w' = stripped (w_learner w)).
  Proof.
    intros HD H. unfold save in H. destruct (can_open name) as [e|]; [destruct H as [<-|[]]; left; reflexivity|]. rewrite HD in H.
    assert (K : forall c l, (exists k, (k <= length bs)%nat /\ c = firstn k bs) -> (l = w_learner w \/ l = stripped (w_learner w)) ->
       (exists k, (k <= length bs)%nat /\ w_files (World (set_file name c (w_files w)) l) name = Some (firstn k bs)) /\
       (forall m, m <> name -> w_files (World (set_file name c (w_files w)) l) m = w_files w m) /\
       (w_learner (World (set_file name c (w_files w)) l) = w_learner w \/ w_learner (World (set_file name c (w_files w)) l) = stripped (w_learner w))).
    { intros c l [k [Hk ->]] Hl. cbn [w_files w_learner]. split; [exists k; split; [exact Hk|apply set_file_same]|]. split; [intros m Hm; apply set_file_other; exact Hm|exact Hl]. }
    assert (KO : forall w', In w' (map (fun k => World (set_file name (firstn k bs) (w_files w)) (stripped (w_learner w))) (seq 0 (S (length bs)))) ->
       exists c l, w' = World (set_file name c (w_files w)) l /\ (exists k, (k <= length bs)%nat /\ c = firstn k bs) /\ (l = w_learner w \/ l = stripped (w_learner w))).
    { intros v Hv. apply in_map_iff in Hv. destruct Hv as [k [<- Hk]]. apply in_seq in Hk. eexists. eexists. split; [reflexivity|]. split; [exists k; split; [lia|reflexivity]|right; reflexivity]. }
    assert (Z0 : exists k, (k <= length bs)%nat /\ @nil B = firstn k bs) by (exists O; split; [lia|reflexivity]).
    assert (ZN : exists k, (k <= length bs)%nat /\ bs = firstn k bs) by (exists (length bs); split; [lia|symmetry; apply firstn_all]).
    destruct o as [e|]; destruct H as [<-|[<-|H]]; try (left; reflexivity); right.
    - apply K; [exact Z0|left; reflexivity].
    - destruct (KO _ H) as [c [l [-> [P Q]]]]. apply K; assumption.
    - apply K; [exact Z0|left; reflexivity].
    - apply in_app_or in H. destruct H as [H|[<-|[]]].
      + destruct (KO _ H) as [c [l [-> [P Q]]]]. apply K; assumption.
      + apply K; [exact ZN|left; reflexivity].
  Qed.
  (** and all of them occur *)
  Lemma save_reaches name (w : world R C B) bs o k : can_open name = None -> dump (stripped (w_learner w)) = (bs, o) -> (k <= length bs)%nat ->
    In (World (set_file name (firstn k bs) (w_files w)) (stripped (w_learner w))) (fst (save dump can_open name w)).
  Proof.
    intros HO HD Hk. unfold save. rewrite HO, HD.
    assert (I : In (World (set_file name (firstn k bs) (w_files w)) (stripped (w_learner w)))
      (map (fun k => World (set_file name (firstn k bs) (w_files w)) (stripped (w_learner w))) (seq 0 (S (length bs))))).
    { apply in_map_iff. exists k. split; [reflexivity|]. apply in_seq. lia. }
    destruct o as [e|]; cbn [fst]; right; right; [exact I|apply in_or_app; left; exact I].
  Qed.

  Lemma due_states lg i (w w' : world R C B) bs o : due (sl_every lg) i -> dump (stripped (w_learner w)) = (bs, o) ->
    In w' (fst (call dump can_open lg i w)) ->
    w' = w \/ exists name k, target lg i = Ok name /\ due (sl_every lg) i /\
    w_files w' name = Some (firstn k bs) /\
    (forall m, m <> name -> w_files w' m = w_files w m) /\
    l_rest (w_learner w') = l_rest (w_learner w) /\
    (w_learner w' = w_learner w \/ l_cache (w_learner w) <> None /\ l_cache (w_learner w') = Some None).
  Proof.
    intros D HD H. rewrite (call_due lg i w D) in H. destruct (target lg i) as [name|e] eqn:T.
    - destruct (save_states name w w' bs o HD H) as [->|[[k [Hk F]] [U L]]]; [left; reflexivity|]. right. exists name, k.
      split; [reflexivity|]. split; [exact D|]. split; [exact F|]. split; [exact U|].
      unfold stripped in L. destruct (w_learner w) as [r [c|]]; cbn [l_cache l_rest] in *; destruct L as [->| ->]; cbn [l_rest l_cache];
        (split; [reflexivity|]); [left; reflexivity|right; split; [discriminate|reflexivity]|left; reflexivity|left; reflexivity].
    - destruct H as [<-|[]]. left. reflexivity.
  Qed.

  (** ** training runs *)
  Definition good (lr : learner R C) (bs : list B) : Prop :=
    dump (match l_cache lr with None => lr | Some _ => Learner (l_rest lr) (Some None) end) = (bs, None).
  Lemma good_stripped lr bs : good lr bs -> dump (stripped lr) = (bs, None).
  Proof. unfold good, stripped. destruct (l_cache lr); auto. Qed.
  Lemma call_states lg i (w w' : world R C B) bs o : dump (stripped (w_learner w)) = (bs, o) ->
    In w' (fst (call dump can_open lg i w)) ->
    w' = w \/ exists name k, target lg i = Ok name /\ due (sl_every lg) i /\
    w_files w' name = Some (firstn k bs) /\
    (forall m, m <> name -> w_files w' m = w_files w m) /\
    l_rest (w_learner w') = l_rest (w_learner w) /\
    (w_learner w' = w_learner w \/ l_cache (w_learner w) <> None /\ l_cache (w_learner w') = Some None).
  Proof.
    intros HD H. destruct i as [z|].
    - destruct (Z.eqb_spec (sl_every lg) 0) as [E|E].
      + rewrite call_every_0 in H by exact E. destruct H as [<-|[]]. left. reflexivity.
      + destruct (Z.eqb_spec (z mod sl_every lg) 0) as [D|D].
        * assert (DU : due (sl_every lg) (Iter z)) by (right; exists z; split; [reflexivity|]; split; [exact E|]; apply (Z.mod_divide z _ E); exact D).
          exact (due_states lg (Iter z) w w' bs o DU HD H).
        * rewrite call_not_due in H; [destruct H as [<-|[]]; left; reflexivity|exact E|]. intro K. apply D. apply (Z.mod_divide z _ E). exact K.
    - assert (DU : due (sl_every lg) Final) by (left; reflexivity). exact (due_states lg Final w w' bs o DU HD H).
  Qed.
  Lemma template_not_written (undump : list B -> res (learner R C)) pre post every i (w w' : world R C B) :
    plain pre = true -> plain post = true -> let lg := SaveLogger (append pre (append "%d" post)) every in
    In w' (fst (call dump can_open lg i w)) -> load undump lg (w_files w') = load undump lg (w_files w).
  Proof.
    intros H1 H2 lg H. destruct (dump (stripped (w_learner w))) as [bs o] eqn:HD.
    destruct (call_states lg i w w' bs o HD H) as [->|[name [k [T [_ [_ [U _]]]]]]]; [reflexivity|].
    unfold load. cbn [sl_file lg]. rewrite U; [reflexivity|]. unfold target in T. cbn [sl_file lg] in T. rewrite has_d in T.
    destruct i as [z|].
    - rewrite (proj1 (format_one pre post z H1 H2)) in T. injection T as <-. intro Q. apply app_cancel_l, app_cancel_r in Q. symmetry in Q. exact (str_int_not_directive z Q).
    - rewrite (proj2 (format_one pre post 0 H1 H2)) in T. discriminate T.
  Qed.

  Lemma calls_step lg i lr r f name bs : due (sl_every lg) i ->
    target lg i = Ok name -> can_open name = None -> good lr bs ->
    calls dump can_open lg ((i, lr) :: r) f = calls dump can_open lg r (set_file name bs f).
  Proof.
    intros D T O G. cbn [calls]. rewrite (call_due lg i _ D), T. destruct (save_ok name (World f lr) bs O (good_stripped _ _ G)) as [A E].
    destruct (save dump can_open name (World f lr)) as [tr o]. cbn [fst snd w_files w_learner] in A, E. subst o. rewrite E. reflexivity.
  Qed.
  Lemma calls_skip lg z lr r f : sl_every lg <> 0%Z -> ~ (sl_every lg | z)%Z ->
    calls dump can_open lg ((Iter z, lr) :: r) f = calls dump can_open lg r f.
  Proof. intros N D. cbn [calls]. rewrite call_not_due by assumption. reflexivity. Qed.

  (** numbered files: one per due iteration, then TypeError at 'final' *)
  Lemma run_numbered pre post every (ls : list (learner R C)) out : plain pre = true -> plain post = true -> every <> 0%Z ->
    (forall n, can_open n = None) -> Forall2 good ls out -> forall (start : Z) last_l f,
    let lg := SaveLogger (append pre (append "%d" post)) every in
    let name z := append pre (append (str_int z) post) in
    let iters := map (fun k => Iter (start + Z.of_nat k)) (seq 0 (length ls)) in
    exists f', calls dump can_open lg (combine iters ls ++ [(Final, last_l)]) f = (f', Some TypeError) /\
      (forall k, (k < length ls)%nat ->
         f' (name (start + Z.of_nat k)%Z) = if ((start + Z.of_nat k) mod every =? 0)%Z then Some (nth k out []) else f (name (start + Z.of_nat k)%Z)) /\
      (forall m, (forall k, (k < length ls)%nat -> m <> name (start + Z.of_nat k)%Z) -> f' m = f m).
  Proof.
    intros P1 P2 N O G. induction G as [|lr bs ls out G0 G1 IH]; intros start last_l f lg name iters.
    - exists f. split; [|split; [intros k Hk; simpl in Hk; lia|auto]].
      unfold iters. cbn [length seq map combine app calls]. rewrite call_due by (left; reflexivity). unfold target. cbn [sl_file lg]. rewrite has_d.
      rewrite (proj2 (format_one pre post 0 P1 P2)). reflexivity.
    - assert (INJ : forall a b, name a = name b -> a = b).
      { intros a b E. unfold name in E. apply app_cancel_l, app_cancel_r, str_int_inj in E. exact E. }
      assert (IT : combine iters (lr :: ls) = (Iter start, lr) :: combine (map (fun k => Iter (start + 1 + Z.of_nat k)) (seq 0 (length ls))) ls).
      { unfold iters. cbn [length seq map combine]. f_equal; [f_equal; f_equal; lia|]. f_equal. rewrite <- seq_shift, map_map. apply map_ext. intro k. f_equal. lia. }
      rewrite IT. cbn [app].
      assert (TG : target lg (Iter start) = Ok (name start)).
      { unfold target, lg. cbn [sl_file]. rewrite has_d. apply format_one; assumption. }
      set (f1 := if (start mod every =? 0)%Z then set_file (name start) bs f else f).
      destruct (IH (start + 1)%Z last_l f1) as [f' [E [V U]]]. exists f'. fold lg in E. split.
      + rewrite <- E. unfold f1. destruct (Z.eqb_spec (start mod every) 0) as [D|D].
        * apply calls_step; [right; exists start; split; [reflexivity|]; split; [exact N|]; apply (Z.mod_divide start _ N); exact D|exact TG|apply O|exact G0].
        * apply calls_skip; [exact N|]. intro H. apply D. apply (Z.mod_divide start _ N). exact H.
      + split.
        * intros [|k] Hk.
          -- cbn [nth]. replace (start + Z.of_nat 0)%Z with start by lia. rewrite U.
             ++ unfold f1. destruct (start mod every =? 0)%Z; [apply set_file_same|reflexivity].
             ++ intros k Hk' Q. apply INJ in Q. lia.
          -- cbn [nth]. specialize (V k ltac:(simpl in Hk; lia)). replace (start + 1 + Z.of_nat k)%Z with (start + Z.of_nat (S k))%Z in V by lia. fold (name (start + Z.of_nat (S k))%Z) in V. rewrite V.
             destruct ((start + Z.of_nat (S k)) mod every =? 0)%Z; [reflexivity|]. unfold f1. destruct (start mod every =? 0)%Z; [|reflexivity].
             apply set_file_other. intro Q. apply INJ in Q. lia.
        * intros m Hm. rewrite U.
          -- unfold f1. destruct (start mod every =? 0)%Z; [|reflexivity]. apply set_file_other. specialize (Hm 0%nat ltac:(simpl; lia)). replace (start + Z.of_nat 0)%Z with start in Hm by lia. exact Hm.
          -- intros k Hk. specialize (Hm (S k) ltac:(simpl; lia)). replace (start + 1 + Z.of_nat k)%Z with (start + Z.of_nat (S k))%Z by lia. exact Hm.
  Qed.
  (** one file: the final learner *)
  Lemma run_single name every (ls : list (learner R C)) out : has_percent_d name = false -> every <> 0%Z ->
    can_open name = None -> Forall2 good ls out -> forall (iters : list Z) last_l last_b f, length iters = length ls -> good last_l last_b ->
    exists f', calls dump can_open (SaveLogger name every) (combine (map Iter iters) ls ++ [(Final, last_l)]) f = (f', None) /\
      f' name = Some last_b /\ forall m, m <> name -> f' m = f m.
  Proof.
    intros P N O G. induction G as [|lr bs ls out G0 G1 IH]; intros iters last_l last_b f L GL.
    - destruct iters; [|discriminate L]. exists (set_file name last_b f). cbn [map combine app]. split.
      + rewrite (calls_step _ Final last_l [] f name last_b); [reflexivity|left; reflexivity| |exact O|exact GL]. unfold target. cbn [sl_file]. rewrite P. reflexivity.
      + split; [apply set_file_same|]. intros m Hm. apply set_file_other. exact Hm.
    - destruct iters as [|z iters]; [discriminate L|]. cbn [map combine app].
      destruct (Z.eqb_spec (z mod every) 0) as [D|D].
      + destruct (IH iters last_l last_b (set_file name bs f) ltac:(simpl in L; lia) GL) as [f' [E [A U]]]. exists f'. split; [|split; [exact A|]].
        * rewrite <- E. apply calls_step; [right; exists z; split; [reflexivity|]; split; [exact N|]; apply (Z.mod_divide z _ N); exact D| |exact O|exact G0].
          unfold target. cbn [sl_file]. rewrite P. reflexivity.
        * intros m Hm. rewrite U by exact Hm. apply set_file_other. exact Hm.
      + destruct (IH iters last_l last_b f ltac:(simpl in L; lia) GL) as [f' [E [A U]]]. exists f'. split; [|split; [exact A|exact U]].
        rewrite <- E. apply calls_skip; [exact N|]. intro H. apply D. apply (Z.mod_divide z _ N). exact H.
  Qed.
End Save.
