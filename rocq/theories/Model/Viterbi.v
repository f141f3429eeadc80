(** Model of pystruct/inference/_viterbi.pyx *)
From Verif Require Export Model.Common.

(** The loop over j, _viterbi.pyx 48-52: [maxval = None] is NEGINF. *)
Fixpoint vit_max (prev : list Qc) (sik : Qc) (tr : nat -> Qc) (j maxind : nat) (maxval : option Qc)
  : nat * option Qc :=
  match prev with
  | [] => (maxind, maxval)
  | p :: prev' =>
      let candidate := p + sik + tr j in
      let better := match maxval with None => true | Some m => Qcltb m candidate end in
      if better then vit_max prev' sik tr (S j) j (Some candidate)
      else vit_max prev' sik tr (S j) maxind maxval
  end.

(** One cell (i, k) of the forward recursion, lines 46-55: score[i, k] and backp[i, k].
    [None] cannot be stored: with n_states = 0 there is no cell. *)
Definition vit_cell (prev row : list Qc) (t : list (list Qc)) (k : nat) : res (Qc * nat) :=
  match vit_max prev (get1 row k) (fun j => get2 t j k) 0 0 None with
  | (ind, Some v) => Ok (v, ind)
  | (_, None) => Err OtherException
  end.

(** Forward recursion, lines 44-55, from row [prev] = score[i-1].  Result: the last row of
    the DP table and the rows backp[i], backp[i+1], ... *)
Fixpoint vit_forward (n_states : nat) (prev : list Qc) (rows : list (list Qc))
         (trans : list (list (list Qc))) : res (list Qc * list (list nat)) :=
  match rows with
  | [] => Ok (prev, [])
  | row :: rows' =>
      match trans with
      | [] => if (n_states =? 0)%nat then vit_forward n_states [] rows' [] (* inner loops do not run *)
              else Err OutOfBounds                   (* unchecked read of trans_score[i-1] *)
      | t :: trans' =>
          let! cells := mapM (vit_cell prev row t) (seq 0 n_states) in
          let! r := vit_forward n_states (map fst cells) rows' trans' in
          Ok (fst r, map snd cells :: snd r)
      end
  end.

(** Path backtracking, lines 61-62: [backp] are the rows after the first, [last] the label of
    the last sample. *)
Fixpoint vit_back (backp : list (list nat)) (last : nat) : list nat :=
  match backp with
  | [] => [last]
  | b :: r => let path := vit_back r last in nth (nth 0 path O) b O :: path
  end.

(** [viterbi], _viterbi.pyx 16-64 *)
Definition viterbi (score : mat) (trans_score : list (list (list Qc))) : res (list nat) :=
  match mdat score with
  | [] => Err OutOfBounds                            (* path[-1] with wraparound=False *)
  | row0 :: rows =>
      let! f := vit_forward (mcols score) row0 rows trans_score in
      let! last := np_argmax (fst f) in              (* line 59; ValueError if n_states = 0 *)
      Ok (vit_back (snd f) last)
  end.
