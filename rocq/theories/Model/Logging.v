(** pystruct/utils/logging.py, class SaveLogger.

    pickle and the operating system are parameters: [dump] gives the bytes that reach the file and
    the exception raised after them, if any; [can_open] the exception of opening a file for
    writing, if any.  A learner is its inference_cache_ attribute (absent, None or a value) and the
    rest of its state.  Printing (verbose) is not modelled. *)
From Coq Require Import String Ascii ZArith DecimalString.
From Verif Require Export Model.Numpy.

(** ** Python's  template % argument  with one argument *)
Inductive iteration := Iter (z : Z) | Final.                      (* an int, or 'final' *)
Definition str_int (z : Z) : string := NilZero.string_of_int (Z.to_int z).
Definition percent : ascii := "%"%char.

(** the conversion characters d, i, u and s; flags, widths and other conversions are not modelled
    (OtherException) *)
Definition render (i : iteration) (c : ascii) : res string :=
  if (Ascii.eqb c "d" || Ascii.eqb c "i" || Ascii.eqb c "u")%char then
    match i with Iter z => Ok (str_int z) | Final => Err TypeError end
  else if Ascii.eqb c "s" then Ok (match i with Iter z => str_int z | Final => "final"%string end)
  else Err OtherException.
Fixpoint format_loop (i : iteration) (s : string) (used : bool) : res (string * bool) :=
  match s with
  | EmptyString => Ok (EmptyString, used)
  | String c r =>
      if Ascii.eqb c percent then
        match r with
        | EmptyString => Err ValueError                           (* incomplete format *)
        | String c2 r2 =>
            if Ascii.eqb c2 percent then
              let! q := format_loop i r2 used in Ok (String percent (fst q), snd q)
            else if used then Err TypeError                       (* not enough arguments *)
            else
              let! t := render i c2 in
              let! q := format_loop i r2 true in
              Ok (append t (fst q), snd q)
        end
      else
        let! q := format_loop i r used in Ok (String c (fst q), snd q)
  end.
Definition format (s : string) (i : iteration) : res string :=
  let! q := format_loop i s false in
  let! _ := ensure (snd q) TypeError in                           (* not all arguments converted *)
  Ok (fst q).

(** "%d" in s *)
Fixpoint has_percent_d (s : string) : bool :=
  match s with
  | EmptyString => false
  | String c r => prefix "%d" (String c r) || has_percent_d r
  end.

(** ** SaveLogger *)
Record save_logger := SaveLogger { sl_file : string; sl_every : Z }.

Section Saving.
  Context {R C B : Type}.
  Record learner := Learner { l_rest : R; l_cache : option (option C) }.
  Definition files := string -> option (list B).
  Record world := World { w_files : files; w_learner : learner }.
  Definition set_file (n : string) (c : list B) (f : files) : files :=
    fun m => if String.eqb m n then Some c else f m.
  (** what is written to the file: pickle.dump with the cache out of the way *)
  Definition stripped (l : learner) : learner :=
    match l_cache l with Some _ => Learner (l_rest l) (Some None) | None => l end.

  (** [save], lines 54-64: the states it goes through, one for every byte written, from the
      initial to the final one, and the exception *)
  Definition save (dump : learner -> list B * option exn) (can_open : string -> option exn) (name : string) (w : world)
    : list world * option exn :=
    match can_open name with
    | Some e => ([w], Some e)
    | None =>
        let l := w_learner w in
        let '(bs, o) := dump (stripped l) in
        let at_byte k := World (set_file name (firstn k bs) (w_files w)) (stripped l) in
        let opened := World (set_file name [] (w_files w)) l in
        let written := map at_byte (seq 0 (S (length bs))) in
        match o with
        | Some e => (w :: opened :: written, Some e)
        | None => (w :: opened :: written ++ [World (set_file name bs (w_files w)) l], None)
        end
    end.

  (** [__call__], lines 34-52 *)
  Definition call (dump : learner -> list B * option exn) (can_open : string -> option exn) (lg : save_logger)
             (i : iteration) (w : world) : list world * option exn :=
    let due := match i with
               | Final => Ok true
               | Iter z => if (sl_every lg =? 0)%Z then Err ZeroDivisionError else Ok (z mod sl_every lg =? 0)%Z
               end in
    match due with
    | Err e => ([w], Some e)
    | Ok false => ([w], None)
    | Ok true =>
        match (if has_percent_d (sl_file lg) then format (sl_file lg) i else Ok (sl_file lg)) with
        | Err e => ([w], Some e)
        | Ok name => save dump can_open name w
        end
    end.

  (** [load], lines 66-71; a missing file raises (OtherException stands for FileNotFoundError) *)
  Definition load (undump : list B -> res learner) (lg : save_logger) (f : files) : res learner :=
    match f (sl_file lg) with
    | None => Err OtherException
    | Some bs => undump bs
    end.

  (** the calls of a training run: one learner state per iteration, then 'final'; the first
      exception ends the run *)
  Fixpoint calls (dump : learner -> list B * option exn) (can_open : string -> option exn) (lg : save_logger)
           (l : list (iteration * learner)) (f : files) : files * option exn :=
    match l with
    | [] => (f, None)
    | (i, lr) :: r =>
        let '(tr, o) := call dump can_open lg i (World f lr) in
        let f' := w_files (last tr (World f lr)) in
        match o with
        | Some e => (f', Some e)
        | None => calls dump can_open lg r f'
        end
    end.
End Saving.
Arguments learner : clear implicits. Arguments files : clear implicits. Arguments world : clear implicits.
Arguments Learner {R C}. Arguments World {R C B}.
