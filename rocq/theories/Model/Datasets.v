(** Model of pystruct/datasets/synthetic_grids.py.

    Every random call takes its values from an arbitrary stream of numbers, reduced to the asked range; np.random.seed is what
    fixes the stream.  np.random.normal is an arbitrary array.  Images are functions of row and column, read only inside their
    shape; slices beyond the shape are clipped by that.  X is an (h, w, c) array per sample (Model/Grid.v), labels are raveled.
    Sizes, counts and [noise] (when a number of flips) are naturals. *)
From Coq Require Import ZArith.
From Verif Require Export Model.Grid.

(** ** random draws *)
(** a result and the next position in the stream; an exception; or a while loop that has not ended after the given number of
    attempts *)
Inductive outcome (A : Type) := Done (a : A) (pos : nat) | Raised (e : exn) | Running.
Arguments Done {A} a pos. Arguments Raised {A} e. Arguments Running {A}.
Definition gen (A : Type) := (nat -> nat) -> nat -> outcome A.
Definition gret {A} (a : A) : gen A := fun _ p => Done a p.
Definition gbind {A B} (g : gen A) (k : A -> gen B) : gen B :=
  fun s p => match g s p with Done a q => k a s q | Raised e => Raised e | Running => Running end.
Notation "'draw' x ':=' r 'in' k" := (gbind r (fun x => k))
  (at level 200, x pattern, r at level 100, k at level 200, only parsing).
Definition glift {A} (r : res A) : gen A := fun _ p => match r with Ok a => Done a p | Err e => Raised e end.
(** np.random.randint(lo, hi) *)
Definition randint (lo hi : nat) : gen nat :=
  fun s p => if (lo <? hi)%nat then Done (lo + s p mod (hi - lo))%nat (S p) else Raised ValueError.
(** np.random.randint(lo, hi, size=2) *)
Definition randint2 (lo hi : nat) : gen (nat * nat) :=
  draw a := randint lo hi in draw b := randint lo hi in gret (a, b).
(** np.random.uniform() > .5 *)
Definition coin : gen bool := fun s p => Done (Nat.odd (s p)) (S p).
Fixpoint times {A} (n : nat) (g : gen A) : gen (list A) :=
  match n with
  | O => gret []
  | S n => draw a := g in draw l := times n g in gret (a :: l)
  end.
Fixpoint mapG {A B} (f : A -> gen B) (l : list A) : gen (list B) :=
  match l with
  | [] => gret []
  | a :: l => draw b := f a in draw bs := mapG f l in gret (b :: bs)
  end.
Fixpoint loopG {A} (n : nat) (f : A -> gen A) (a : A) : gen A :=
  match n with
  | O => gret a
  | S n => draw b := f a in loopG n f b
  end.
(** while True: t, l = randint(lo, hi, size=2); if accepted: break *)
Fixpoint place (fuel : nat) (accept : nat -> nat -> bool) (lo hi : nat) : gen (nat * nat) :=
  match fuel with
  | O => fun _ _ => Running
  | S fuel => draw tl := randint2 lo hi in
              if accept (fst tl) (snd tl) then gret tl else place fuel accept lo hi
  end.

(** ** images *)
Notation image A := (nat -> nat -> A) (only parsing).
Definition blank : image nat := fun _ _ => O.
(** the indices of a:b, of a::k, of the scalar a, of : *)
Definition sl (a b i : nat) : bool := (a <=? i)%nat && (i <? b)%nat.
Definition every (a k i : nat) : bool := (a <=? i)%nat && ((i - a) mod k =? 0)%nat.
Definition just (a i : nat) : bool := (a =? i)%nat.
Definition whole (i : nat) : bool := true.
(** y[rows, cols] = v *)
Definition set_at {A} (rows cols : nat -> bool) (v : A) (im : image A) : image A :=
  fun i j => if rows i && cols j then v else im i j.
(** a scalar index must be inside *)
Definition inside (n : nat) (l : list nat) : gen unit := glift (ensure (forallb (fun i => i <? n)%nat l) IndexError).
(** |t - t_old| > k or |l - l_old| > k *)
Definition far (k : Z) (old : Z * Z) (t l : nat) : bool :=
  (k <? Z.abs (Z.of_nat t - fst old))%Z || (k <? Z.abs (Z.of_nat l - snd old))%Z.

Definition labels_of (h w : nat) (y : image nat) : list nat := concat (map (fun i => map (y i) (seq 0 w)) (seq 0 h)).
Definition grid_of (h w c : nat) (f : nat -> nat -> nat -> Qc) : grid_x :=
  GridX h w c (concat (map (fun i => concat (map (fun j => map (f i j) (seq 0 c)) (seq 0 w))) (seq 0 h))).

(** flips = randint(lo, hi, size=[noise, 2]); y[flips[:, 0], flips[:, 1]] = randint(k, size=noise): the last one wins *)
Definition flip (lo hi k noise : nat) (y : image nat) : gen (image nat) :=
  draw _ := glift (ensure (lo <? hi)%nat ValueError) in
  draw flips := times noise (randint2 lo hi) in
  draw vals := times noise (randint 0 k) in
  gret (fold_left (fun im p => set_at (just (fst (fst p))) (just (snd (fst p))) (snd p) im) (combine flips vals) y).
(** X = zeros(..., c); X[ix, iy, iz, m * Y_flips] = 1 for every multiple m in turn *)
Definition encode (h w c : nat) (multiples : list nat) (y : image nat) : res grid_x :=
  let! _ := ensure (forallb (fun i => forallb (fun j => forallb (fun m => m * y i j <? c)%nat multiples) (seq 0 w)) (seq 0 h)) IndexError in
  Ok (grid_of h w c (fun i j k => if existsb (fun m => m * y i j =? k)%nat multiples then 1 else 0)).
(** the tail of the generators with flips: Y_flips from [base] of Y, flipped, then X *)
Definition observe (size c : nat) (multiples : list nat) (base : nat -> nat) (lo hi k noise : nat) (Ys : list (image nat))
  : gen (list (grid_x * list nat)) :=
  draw Yf := mapG (fun y : image nat => flip lo hi k noise (fun i j => base (y i j))) Ys in
  draw Xs := glift (mapM (encode size size c multiples) Yf) in
  gret (combine Xs (map (labels_of size size) Ys)).
Definition same (v : nat) : nat := v.
(** (Y.copy() != 0).astype(np.int) *)
Definition nonzero (v : nat) : nat := if (v =? 0)%nat then 0%nat else 1%nat.

(** ** deterministic labels with normal noise *)
Definition qpos (q : Qc) : nat := if Qcltb 0 q then 1%nat else 0%nat.
Definition qneg (q : Qc) : nat := if Qcltb q 0 then 1%nat else 0%nat.
Definition normals := nat -> nat -> nat -> Qc.
(** lines 9-18 *)
Definition generate_blocks (n_samples : nat) (noise : Qc) (normal : normals) : list (grid_x * list nat) :=
  let Y := set_at whole (sl 0 6) (- (1)) (fun _ _ => 1) in
  map (fun s => let X i j := Y i j + noise * normal s i j in
                (grid_of 10 12 2 (fun i j k => if (k =? 0)%nat then - X i j else X i j),
                 labels_of 10 12 (fun i j => qpos (Y i j)))) (seq 0 n_samples).
(** lines 21-29 *)
Definition generate_checker (n_samples : nat) (noise : Qc) (normal : normals) : list (grid_x * list nat) :=
  let Y := set_at (every 1 2) (every 1 2) (- (1)) (set_at (every 0 2) (every 0 2) (- (1)) (fun _ _ => 1)) in
  map (fun s => let X i j := Y i j + noise * normal s i j in
                (grid_of 11 13 2 (fun i j k => if (k =? 0)%nat then - X i j else 0),
                 labels_of 11 13 (fun i j => qpos (Y i j)))) (seq 0 n_samples).
(** lines 32-43; repeat(field_size) along both axes: pixel i belongs to field i / field_size *)
Definition generate_big_checker (n_samples : nat) (noise : Qc) (n_fields field_size : nat) (normal : normals) : list (grid_x * list nat) :=
  let y_small := set_at (every 1 2) (every 1 2) (- (1)) (set_at (every 0 2) (every 0 2) (- (1)) (fun _ _ => 1)) in
  let Y i j := y_small (i / field_size)%nat (j / field_size)%nat in
  let size := (n_fields * field_size)%nat in
  map (fun s => let X i j := Y i j + noise * normal s i j in
                (grid_of size size 2 (fun i j k => if (k =? 0)%nat then X i j else - X i j),
                 labels_of size size (fun i j => qneg (Y i j)))) (seq 0 n_samples).

(** np.argmax over the last axis *)
Definition argmax_last (c : nat) (Y : nat -> nat -> nat -> Qc) (i j : nat) : nat :=
  match np_argmax (map (Y i j) (seq 0 c)) with Ok k => k | Err _ => O end.
(** Y[:, rows, cols, k] = v *)
Definition set_chan (rows cols : nat -> bool) (k : nat) (v : Qc) (Y : nat -> nat -> nat -> Qc) : nat -> nat -> nat -> Qc :=
  fun i j c => if (rows i && cols j && (c =? k)%nat)%bool then v else Y i j c.
Definition normals4 := nat -> nat -> nat -> nat -> Qc.
(** lines 205-215.  np.zeros with size_x - 2 < 0 rows is a ValueError; step:-step and -step: with step = 0 are nothing and
    everything, but then there are no rows *)
Definition generate_blocks_multinomial (n_samples : nat) (noise : Qc) (size_x : nat) (normal : normals4) : res (list (grid_x * list nat)) :=
  let! _ := ensure (2 <=? size_x)%nat ValueError in
  let step := (size_x / 3)%nat in
  let Y := set_chan whole (sl (size_x - step) size_x) 2 1
             (set_chan whole (sl step (size_x - step)) 1 1
               (set_chan whole (sl 0 step) 0 1 (fun _ _ _ => 0))) in
  Ok (map (fun s => (grid_of (size_x - 2) size_x 3 (fun i j k => Y i j k + noise * normal s i j k),
                     labels_of (size_x - 2) size_x (argmax_last 3 Y))) (seq 0 n_samples)).
(** lines 218-225 *)
Definition generate_checker_multinomial (n_samples : nat) (noise : Qc) (size_x : nat) (normal : normals4) : res (list (grid_x * list nat)) :=
  let! _ := ensure (2 <=? size_x)%nat ValueError in
  let Y := set_chan whole whole 2 0
             (set_chan (every 1 2) (every 1 2) 1 1
               (set_chan (every 0 2) (every 0 2) 0 1 (fun _ _ _ => - (1)))) in
  Ok (map (fun s => (grid_of (size_x - 2) size_x 3 (fun i j k => Y i j k + noise * normal s i j k),
                     labels_of (size_x - 2) size_x (argmax_last 3 Y))) (seq 0 n_samples)).
(** lines 228-244 *)
Definition generate_big_checker_extended (n_samples : nat) (noise : Qc) (n_fields field_size : nat) (normal : normals4)
  : list (grid_x * list nat) :=
  let y_small := set_at (every 1 2) (every 1 2) 2%nat (set_at (every 0 2) (every 0 2) 2%nat blank) in
  let y i j := y_small (i / field_size)%nat (j / field_size)%nat in
  let Y := set_at (every 4 6) (every 4 6) 3%nat (set_at (every 1 6) (every 1 6) 3%nat (set_at (every 1 3) (every 1 3) 1%nat y)) in
  let size := (n_fields * field_size)%nat in
  map (fun s => (grid_of size size 4 (fun i j k => ((if (Y i j =? k)%nat then 1 else 0) + noise * normal s i j k) * ofN 100),
                 labels_of size size Y)) (seq 0 n_samples).

(** ** random labels *)
(** lines 46-61; X is a list of (4, 4) integer arrays *)
Definition make_simple_2x2 (n_flips n_samples : nat) : gen (list (list Z * list nat)) :=
  times n_samples
    (draw jk := randint2 0 2 in
     let (j, k) := (2 * fst jk, 2 * snd jk)%nat in
     let y := set_at (sl j (j + 2)) (sl k (k + 2)) 1%nat blank in
     draw x := loopG n_flips (fun x : image nat =>
                 draw ab := randint2 0 4 in
                 draw v := randint 0 2 in
                 gret (set_at (just (fst ab)) (just (snd ab)) v x)) y in
     gret (map (fun v => if (v =? 0)%nat then (-1)%Z else Z.of_nat v) (labels_of 4 4 x), labels_of 4 4 y)).

(** the loop of generate_easy and generate_bars: a second position is only used when far from the first; [put t l im] draws *)
Definition two_far (reach lo hi : nat) (put : nat -> nat -> image nat -> gen (image nat)) (n : nat) : gen (image nat) :=
  draw st := loopG n (fun st : Z * Z * image nat =>
    draw tl := randint2 lo hi in
    let (t, l) := tl in
    if far (Z.of_nat reach) (fst st) t l
    then draw im := put t l (snd st) in gret ((Z.of_nat t, Z.of_nat l), im)
    else gret st) ((-10, -10)%Z, blank) in
  gret (snd st).
(** lines 64-90 *)
Definition generate_easy (n_samples noise box_size total_size : nat) : gen (list (grid_x * list nat)) :=
  draw Ys := times n_samples (two_far 3 1 (total_size - box_size)
               (fun t l im => gret (set_at (sl t (t + box_size)) (sl l (l + box_size)) 1%nat im)) 2) in
  observe total_size 2 [1%nat] same 0 total_size 2 noise Ys.
(** len(np.unique(Y)) *)
Definition n_unique_labels (size : nat) (Ys : list (image nat)) : nat :=
  length (nodup Nat.eq_dec (concat (map (labels_of size size) Ys))).
(** lines 93-125 *)
Definition generate_bars (n_samples noise bars_size total_size : nat) (separate_labels : bool) : gen (list (grid_x * list nat)) :=
  draw Ys := times n_samples (two_far 3 1 (total_size - bars_size)
               (fun t l im =>
                  draw vertical := coin in
                  if vertical
                  then draw _ := inside total_size [l] in
                       gret (set_at (sl t (t + bars_size)) (just l) (if separate_labels then 2%nat else 1%nat) im)
                  else draw _ := inside total_size [t] in
                       gret (set_at (just t) (sl l (l + bars_size)) 1%nat im)) 2) in
  let n_classes := n_unique_labels total_size Ys in
  observe total_size n_classes [1%nat] same 0 total_size n_classes noise Ys.
(** lines 128-145 *)
Definition generate_square_with_hole (n_samples noise total_size : nat) : gen (list (grid_x * list nat)) :=
  draw Ys := times n_samples
    (draw tl := randint2 1 (total_size - 3) in
     let (t, l) := tl in
     draw _ := inside total_size [(t + 1)%nat; (l + 1)%nat] in
     gret (set_at (just (t + 1)) (just (l + 1)) 0%nat (set_at (sl t (t + 3)) (sl l (l + 3)) 1%nat blank))) in
  observe total_size 2 [1%nat] same 0 total_size 2 noise Ys.

(** a cross with upper left corner (t, l): bar, bar, centre *)
Definition put_cross (arm centre t l : nat) (im : image nat) : image nat :=
  set_at (just (t + 1)) (just (l + 1)) centre (set_at (sl t (t + 3)) (just (l + 1)) arm (set_at (just (t + 1)) (sl l (l + 3)) arm im)).
(** the loop over crosses of generate_crosses and generate_crosses_explicit: a new position is drawn until it is far from the
    previous one *)
Definition crosses (fuel size hi arm centre n : nat) : gen (image nat) :=
  draw st := loopG n (fun st : Z * Z * image nat =>
    draw tl := place fuel (far 2 (fst st)) 1 hi in
    let (t, l) := tl in
    draw _ := inside size [(t + 1)%nat; (l + 1)%nat] in
    gret ((Z.of_nat t, Z.of_nat l), put_cross arm centre t l (snd st))) ((-3, -3)%Z, blank) in
  gret (snd st).
(** lines 148-172 *)
Definition generate_crosses (fuel n_samples noise total_size n_crosses : nat) : gen (list (grid_x * list nat)) :=
  draw Ys := times n_samples (crosses fuel total_size (total_size - 3) 1 1 n_crosses) in
  observe total_size 2 [1%nat] same 1 (total_size - 1) 2 noise Ys.
(** lines 282-307 *)
Definition generate_crosses_explicit (fuel n_samples noise size n_crosses : nat) : gen (list (grid_x * list nat)) :=
  draw Ys := times n_samples (crosses fuel size (size - 1) 1 2 n_crosses) in
  observe size 3 [1%nat; 2%nat] nonzero 1 (size - 1) 2 noise Ys.
(** lines 175-201; the break condition is |t - t_old| > 2 and |l - l_old| (not zero) with t_old = l_old = -3 *)
Definition generate_xs (fuel n_samples noise : nat) : gen (list (grid_x * list nat)) :=
  draw Ys := times n_samples
    (draw tl := place fuel (fun t l => (2 <? Z.abs (Z.of_nat t - -3))%Z && negb (Z.abs (Z.of_nat l - -3) =? 0)%Z) 1 (8 - 3) in
     let (t, l) := tl in
     draw _ := inside 8 [(t + 3)%nat; (l + 3)%nat] in
     gret (set_at (just (t + 3)) (just (l + 1)) 1%nat (set_at (just (t + 1)) (just (l + 3)) 1%nat
          (set_at (just (t + 3)) (just (l + 3)) 1%nat (set_at (just (t + 2)) (just (l + 2)) 1%nat
          (set_at (just (t + 1)) (just (l + 1)) 1%nat blank)))))) in
  observe 8 2 [1%nat] same 1 7 2 noise Ys.
(** lines 247-279; t_old = l_old = -4 *)
Definition generate_easy_explicit (n_samples noise : nat) : gen (list (grid_x * list nat)) :=
  draw Ys := times n_samples
    (draw tl := randint2 1 (9 - 3) in
     let (t, l) := tl in
     if far 3 (-4, -4)%Z t l
     then draw _ := inside 9 [(t + 1)%nat; (l + 1)%nat] in
          gret (put_cross 2 3 t l (set_at (sl t (t + 3)) (sl l (l + 3)) 1%nat blank))
     else gret blank) in
  observe 9 4 [1%nat; 2%nat; 3%nat] nonzero 0 9 2 noise Ys.
(** lines 310-331 *)
Definition generate_crosses_latent (n_samples noise : nat) : gen (list (grid_x * list nat)) :=
  draw Ys := times n_samples
    (loopG 2 (fun im : image nat =>
       draw tl := randint2 0 (8 - 2) in
       let (t, l) := tl in
       draw _ := inside 8 [(t + 1)%nat; (l + 1)%nat] in
       gret (put_cross 2 3 t l im)) blank) in
  observe 8 2 [1%nat] nonzero 0 8 2 noise Ys.
