(** Model of examples/plot_hidden_short_snakes_typed_gen.py, lines 105-203: snakes drawn at random, and the grids of pictures in
    which they are shown.

    [shuffle k l] is the content of the list [l] after the [k]-th call of random.shuffle.  Printing and matplotlib are not
    modelled: plot_many_snakes yields the pictures that it hands to plot_snake. *)
From Coq Require Import ZArith.
From Verif Require Export Model.HiddenSnakes.

Definition site : Type := (Z * Z)%type.
Definition lDirectionIncr : list site := [(-1, 0); (0, 1); (1, 0); (0, -1)]%Z.
Definition lDirectionColor : list (list nat) := [[255; 0; 0]; [255; 255; 0]; [0; 255; 0]; [0; 255; 255]]%nat.

(** ** The board: aBoard of shape (ndim, ndim), -1 is background *)
Definition board : Type := nat -> nat -> Z.
Definition board_get (ndim : nat) (b : board) (i j : Z) : res Z :=
  let! i' := wrap ndim i in let! j' := wrap ndim j in Ok (b i' j').
Definition board_set (ndim : nat) (b : board) (i j v : Z) : res board :=
  let! i' := wrap ndim i in let! j' := wrap ndim j in
  Ok (fun x y => if ((x =? i') && (y =? j'))%nat then v else b x y).

(** lines 132-135: the first direction that leads to a background site.  None: the last direction tried did not either, and
    line 135 raises GenSnakeException (lDirection always has four entries, so some direction has been tried) *)
Fixpoint try_directions (ndim : nat) (b : board) (i j : Z) (dirs : list nat) : res (option (nat * site)) :=
  match dirs with
  | [] => Ok None
  | d :: dirs' =>
      let! a := index lDirectionIncr d in
      let i' := (i + fst a)%Z in let j' := (j + snd a)%Z in
      let! v := board_get ndim b i' j' in
      if (v =? -1)%Z then Ok (Some (d, (i', j'))) else try_directions ndim b i j dirs'
  end.
(** lines 130-139; [n] rounds are left.  The number of shuffles so far and the list lDirection are carried along. *)
Fixpoint grow (shuffle : nat -> list nat -> list nat) (ndim n : nat) (b : board) (i j : Z) (k : nat) (dirs : list nat)
         (lij : list site) (ldir : list nat) : res (option (list site * list nat) * nat * list nat) :=
  match n with
  | O => Ok (Some (lij, ldir), k, dirs)
  | S n' =>
      let dirs' := shuffle k dirs in
      let! o := try_directions ndim b i j dirs' in
      match o with
      | None => Ok (None, S k, dirs')
      | Some (d, (i', j')) =>
          let! b' := board_set ndim b i j (Z.of_nat d) in
          grow shuffle ndim n' b' i' j' (S k) dirs' (lij ++ [(i, j)]) (ldir ++ [d])
      end
  end.

(** ** The picture, lines 145-154 *)
Definition zmin_of (l : list Z) : res Z := match l with [] => Err ValueError | a :: l => Ok (fold_left Z.min l a) end.
Definition zmax_of (l : list Z) : res Z := match l with [] => Err ValueError | a :: l => Ok (fold_left Z.max l a) end.
(** aSnake[i, j, :] = color and aY[i, j] = label, on arrays of shape (h, w, 3) and (h, w); aY is of type uint8 *)
Definition pixels : Type := nat -> nat -> nat * list nat.
Definition put (h w : nat) (f : pixels) (i j : Z) (label : nat) (color : list nat) : res pixels :=
  let! i' := wrap h i in let! j' := wrap w j in
  Ok (fun x y => if ((x =? i') && (y =? j'))%nat then ((label mod 256)%nat, color) else f x y).
Fixpoint put_all (h w : nat) (imin jmin : Z) (lbl : nat) (l : list (site * nat)) (f : pixels) : res pixels :=
  match l with
  | [] => Ok f
  | ((i, j), d) :: l =>
      let! color := index lDirectionColor d in
      let! f' := put h w f (i - imin + 1) (j - jmin + 1) (lbl + 1) color in
      put_all h w imin jmin (S lbl) l f'
  end.
(** unpacking an empty zip raises ValueError *)
Definition draw (lij : list site) (ldir : list nat) : res (arr3 * lab2) :=
  let! imin := zmin_of (map fst lij) in
  let! jmin := zmin_of (map snd lij) in
  let! imax := zmax_of (map fst lij) in
  let! jmax := zmax_of (map snd lij) in
  let h := Z.to_nat (imax - imin + 3) in
  let w := Z.to_nat (jmax - jmin + 3) in
  let! f := put_all h w imin jmin 0 (combine lij ldir) (fun _ _ => (O, [0; 0; 255]%nat)) in
  Ok (atab h w 3 (fun i j c => ofN (nth c (snd (f i j)) O)), ltab h w (fun i j => fst (f i j))).

(** ** genSnakes, 107-163 *)
(** keys of dUniqueSnakelij *)
Definition same_key (a b : list site) : bool := (length a =? length b)%nat && forallb (fun p => same_cell (fst p) (snd p)) (combine a b).
(** the body of the while loop: a new key with its picture, or None when GenSnakeException is raised *)
Definition attempt (shuffle : nat -> list nat -> list nat) (ncell : nat) (used : list (list site)) (k : nat) (dirs : list nat)
  : res (option (list site * (arr3 * lab2)) * nat * list nat) :=
  let ndim := (1 + ncell + 1 + ncell + 1)%nat in
  let m := (1 + Z.of_nat ncell)%Z in
  let! g := grow shuffle ndim ncell (fun _ _ => (-1)%Z) m m k dirs [] [] in
  let '(o, k', dirs') := g in
  match o with
  | None => Ok (None, k', dirs')
  | Some (lij, ldir) =>
      if existsb (same_key lij) used then Ok (None, k', dirs')
      else let! xy := draw lij ldir in Ok (Some (lij, xy), k', dirs')
  end.
(** [while True].  None: still running after [fuel] rounds. *)
Fixpoint one_snake (shuffle : nat -> list nat -> list nat) (fuel ncell : nat) (used : list (list site)) (k : nat) (dirs : list nat)
  : option (res (list site * (arr3 * lab2) * nat * list nat)) :=
  match fuel with
  | O => None
  | S fuel' =>
      match attempt shuffle ncell used k dirs with
      | Err e => Some (Err e)
      | Ok (Some (key, xy), k', dirs') => Some (Ok (key, xy, k', dirs'))
      | Ok (None, k', dirs') => one_snake shuffle fuel' ncell used k' dirs'
      end
  end.
(** the pictures with their labels, and the keys of the dictionary afterwards *)
Fixpoint gen_loop (shuffle : nat -> list nat -> list nat) (fuel N ncell : nat) (used : list (list site)) (k : nat) (dirs : list nat)
         (out : list (arr3 * lab2)) : option (res (list (arr3 * lab2) * list (list site))) :=
  match N with
  | O => Some (Ok (out, used))
  | S N' =>
      match one_snake shuffle fuel ncell used k dirs with
      | None => None
      | Some (Err e) => Some (Err e)
      | Some (Ok (key, xy, k', dirs')) => gen_loop shuffle fuel N' ncell (used ++ [key]) k' dirs' (out ++ [xy])
      end
  end.
Definition genSnakes (shuffle : nat -> list nat -> list nat) (fuel N : nat) (used : list (list site)) (ncell : nat)
  : option (res (list (arr3 * lab2) * list (list site))) :=
  gen_loop shuffle fuel N ncell used 0 [0; 1; 2; 3]%nat [].

(** ** plot_many_snakes, 165-185 *)
(** allimg[ih:ih+h, iw:iw+w, :] = img: the slice ends with the array; a side of length 1 would be broadcast *)
Definition canvas : Type := nat -> nat -> nat -> Qc.
Definition paste (H W : nat) (f : canvas) (ih iw : nat) (img : arr3) : res canvas :=
  let fits n side pos len := ((len =? 1) || (Nat.min side (pos + n) - Nat.min side pos =? len))%nat in
  let! _ := ensure (a_c img =? 3)%nat AssertionError in
  let! _ := ensure (fits (a_h img) H ih (a_h img) && fits (a_w img) W iw (a_w img)) ValueError in
  Ok (fun i j c => if ((ih <=? i) && (i <? ih + a_h img) && ((iw <=? j) && (j <? iw + a_w img)))%nat
                   then aget img (i - ih) (j - iw) c else f i j c).
(** the pictures of one grid, from number [k] on *)
Fixpoint paste_all (N nv nh k ih iw : nat) (l : list arr3) (f : canvas) : res canvas :=
  match l with
  | [] => Ok f
  | img :: l =>
      let! f' := paste (N * nv) (N * nh) f ih iw img in
      let last := (k mod nh =? nh - 1)%nat in
      paste_all N nv nh (S k) (if last then ih + N else ih)%nat (if last then O else iw + N)%nat l f'
  end.
Definition one_grid (nv nh ncell : nat) (l : list arr3) : res arr3 :=
  let N := (ncell + 1)%nat in
  let! f := paste_all N nv nh 0 0 0 l (fun _ _ _ => 0) in
  Ok (atab (N * nv) (N * nh) 3 f).
(** None: still running after [fuel] grids *)
Fixpoint plot_many_snakes (fuel : nat) (lX : list arr3) (nv nh ncell : nat) : option (res (list arr3)) :=
  match lX with
  | [] => Some (Ok [])
  | _ =>
      match fuel with
      | O => None
      | S fuel' =>
          match one_grid nv nh ncell (firstn (nv * nh) lX) with
          | Err e => Some (Err e)
          | Ok g =>
              match plot_many_snakes fuel' (skipn (nv * nh) lX) nv nh ncell with
              | Some (Ok r) => Some (Ok (g :: r))
              | o => o
              end
          end
      end
  end.

(** ** plot_mistakes, 187-203: the pictures without and with a snake whose picture label (the last one) is predicted wrongly, each
    list shown in grids of 10 x 20 with the default NCELL = 10.  Labels are 1-d arrays. *)
Definition last_label (y : list Z) : res Z := match rev y with [] => Err IndexError | z :: _ => Ok z end.
Fixpoint mistakes (ncell : nat) (l : list (list Z * list Z * arr3)) (no yes : list arr3) : res (list arr3 * list arr3) :=
  match l with
  | [] => Ok (no, yes)
  | (y, y', x) :: l =>
      let! _ := ensure (length y =? length y')%nat AssertionError in
      let! _ := ensure (length y =? a_h x * a_w x * a_c x / 3 + 1)%nat AssertionError in
      let! a := last_label y in
      let! _ := ensure ((a =? Z.of_nat ncell + 1) || (a =? Z.of_nat ncell + 2))%Z AssertionError in
      let! b := last_label y' in
      if (a =? b)%Z then mistakes ncell l no yes
      else if (a - Z.of_nat ncell - 1 =? 0)%Z then mistakes ncell l (no ++ [x]) yes
      else mistakes ncell l no (yes ++ [x])
  end.
Definition plot_mistakes (fuel : nat) (lY_ref lY_pred : list (list Z)) (lX_pict : list arr3) (ncell : nat)
  : option (res (list arr3 * list arr3)) :=
  match mistakes ncell (combine (combine lY_ref lY_pred) lX_pict) [] [] with
  | Err e => Some (Err e)
  | Ok (no, yes) =>
      match plot_many_snakes fuel no 10 20 10 with
      | None => None
      | Some (Err e) => Some (Err e)
      | Some (Ok a) =>
          match plot_many_snakes fuel yes 10 20 10 with
          | None => None
          | Some (Err e) => Some (Err e)
          | Some (Ok b) => Some (Ok (a, b))
          end
      end
  end.
