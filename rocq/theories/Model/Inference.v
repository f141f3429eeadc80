(** Model of pystruct/inference/inference_methods.py.  The external solvers (cvxopt, pyqpbo, ad3,
    opengm) are parameters; an option [None] stands for a package that is not installed. *)
From Coq Require Import String.
From Verif Require Export Model.LP Model.MaxProd.
#[local] Open Scope list_scope.

(** ** Keyword arguments *)

(** A hard logic constraint of AD3+: operator, unaries, states, negated. *)
Definition logic_constraint : Type := (string * list nat * list nat * list bool)%type.

Inductive value :=
| VNone
| VBool (b : bool)
| VInt (n : nat)
| VNum (q : Qc)
| VStr (s : string)
| VLabels (y : list nat)
| VConstraints (c : list logic_constraint).

(** bool(v) *)
Definition truthy (v : value) : bool :=
  match v with
  | VNone => false
  | VBool b => b
  | VInt n => negb (n =? 0)%nat
  | VNum q => negb (Qceqb q 0)
  | VStr s => negb (String.eqb s EmptyString)
  | VLabels y => match y with [] => false | _ => true end
  | VConstraints c => match c with [] => false | _ => true end
  end.

(** A dict: the first binding of a key is the current one. *)
Definition kwargs := list (string * value).
Fixpoint kw_get (kw : kwargs) (k : string) : option value :=
  match kw with
  | [] => None
  | (k', v) :: r => if String.eqb k' k then Some v else kw_get r k
  end.
Definition kw_default (kw : kwargs) (k : string) (d : value) : value :=
  match kw_get kw k with Some v => v | None => d end.
(** a = kw.copy(); a.update(new) *)
Definition kw_update (kw new : kwargs) : kwargs := new ++ kw.

Definition mem (k : string) (l : list string) : bool := existsb (String.eqb k) l.
(** Calling a function with explicit arguments [given], named parameters [named] (defaults exist)
    and keyword arguments [kw]; [var]: the function has a ** parameter. *)
Definition check_call (given named : list string) (var : bool) (kw : kwargs) : res unit :=
  let! _ := ensure (forallb (fun b => negb (mem (fst b) given)) kw) TypeError in
  ensure (var || forallb (fun b => mem (fst b) named) kw) TypeError.

Local Open Scope string_scope.
Definition positional : list string := ["unary_potentials"; "pairwise_potentials"; "edges"].

(** ** Inputs and results *)

(** The arguments unary_potentials, pairwise_potentials, edges: arrays (one node type; only the
    2-d shape (n_nodes, n_states) is modelled), or lists with one entry per node type / pair of types. *)
Inductive problem :=
| Single (U : mat) (p : pairwise) (edges : list (nat * nat))
| Multi (Us : list mat) (ps : list pairwise) (edges : list (list (nat * nat))).

Inductive result :=
| RLabels (y : list nat)
| RMarginals (um pm : mat)
| RMarginalsList (ums pms : list mat).

Inductive status := Integral | Fractional | Infeasible | Unsolved.
Definition not_integral (s : status) : bool :=                  (* status in ["fractional", "unsolved"] *)
  match s with Fractional | Unsolved => true | _ => false end.

(** unary marginals, pairwise marginals, energy, status *)
Definition ad3_answer (M : Type) : Type := (M * M * Qc * status)%type.
Record ad3_lib := Ad3Lib {
  ad3_graph : mat -> list (nat * nat) -> list (list (list Qc)) -> value -> res (ad3_answer mat);
  ad3_graphs : list mat -> list (list (nat * nat)) -> list pairwise -> value -> res (ad3_answer (list mat));
  ad3_constrained : mat -> list (nat * nat) -> pairwise -> value -> value -> res (ad3_answer mat);
  ad3_constraineds : list mat -> list (list (nat * nat)) -> list pairwise -> value -> value -> res (ad3_answer (list mat)) }.

Definition int_table := list (list Z).
Record backends := Backends {
  b_lp : lp_solver;                                              (* imported by the package itself *)
  b_qpbo : option (list (nat * nat) -> int_table -> list int_table -> res (list nat));
  b_int32 : Z -> Z;                                              (* what astype(int32) gives outside the range *)
  b_ogm : option (string -> value -> mat -> list (list (list Qc)) -> list (nat * nat) -> res (list nat));
  b_ad3 : option ad3_lib }.

Definition imported {A} (o : option A) : res A := match o with Some a => Ok a | None => Err ImportError end.

(** ** The inference methods *)

(** [inference_unaries], 543-578 *)
Definition inference_unaries (U : mat) (p : pairwise) (edges : list (nat * nat)) : res (list nat) :=
  let! _ := validate_params U p (length edges) in
  argmax_rows U.

(** numpy's astype(np.int32) on doubles: truncation towards zero *)
Definition int32_min : Z := (- 2147483648)%Z.
Definition int32_max : Z := 2147483647%Z.
Definition trunc (q : Qc) : Z := Z.quot (Qnum q) (Zpos (Qden q)).
Definition to_int32 (overflow : Z -> Z) (q : Qc) : Z :=
  let z := trunc q in
  if ((int32_min <=? z) && (z <=? int32_max))%Z then z else overflow z.
Definition quantise (overflow : Z -> Z) (a : list (list Qc)) : int_table :=
  map (map (fun q => to_int32 overflow (- ofZ 1000 * q))) a.

(** [inference_qpbo], 235-281 *)
Definition inference_qpbo (b : backends) (U : mat) (p : pairwise) (edges : list (nat * nat)) : res (list nat) :=
  let! solve := imported (b_qpbo b) in
  let! v := validate_params U p (length edges) in
  solve edges (quantise (b_int32 b) (mdat U)) (map (quantise (b_int32 b)) (snd v)).

Definition ogm_algs : list string :=
  ["bp"; "dd"; "trws"; "trw"; "gibbs"; "lf"; "icm"; "dyn"; "fm"; "gc"; "loc"; "mqpbo"; "alphaexp"].
(** [inference_ogm], 125-232; labels and gm.evaluate(labels) *)
Definition inference_ogm (b : backends) (U : mat) (p : pairwise) (edges : list (nat * nat)) (alg : string) (init : value)
  : res (list nat * Qc) :=
  let! solve := imported (b_ogm b) in
  let! v := validate_params U p (length edges) in
  let '(k, pws) := v in
  let! _ := ensure (mem alg ogm_algs) UnboundLocalError in
  let neg := map (map (map Qcopp)) pws in
  let! y := solve alg init (mat_neg U) neg edges in
  let! e := compute_energy (mat_neg U) (Pw3 (length edges) k k neg) edges y in
  Ok (y, e).

(** the loop over node types, 410-416 and 521-527; hstack of an empty list raises *)
Fixpoint decode_from (cum : nat) (ums : list mat) : res (list nat) :=
  match ums with
  | [] => Ok []
  | m :: r =>
      let! y := argmax_rows m in
      let! ys := decode_from (cum + mcols m) r in
      Ok (map (Nat.add cum) y ++ ys)%list
  end.
Definition decode_types (ums : list mat) : res (list nat) :=
  match ums with [] => Err ValueError | _ => decode_from 0 ums end.

Definition single_answer (m : mat * mat * Qc * status) (relaxed : bool) (shape : option (nat * nat)) : res (result * Qc) :=
  let '(um, pm, energy, st) := m in
  if not_integral st && relaxed then
    match shape with
    | Some (n, k) => let! um' := reshape (ravel um) n k in Ok (RMarginals um' pm, - energy)
    | None => Ok (RMarginals um pm, - energy)
    end
  else let! y := argmax_rows um in Ok (RLabels y, - energy).
Definition multi_answer (m : list mat * list mat * Qc * status) (relaxed exc : bool) : res (result * Qc) :=
  let '(ums, pms, energy, st) := m in
  if not_integral st && relaxed then Ok (RMarginalsList ums pms, - energy)
  else
    let! _ := ensure (negb (exc && not_integral st)) InferenceException in
    let! y := decode_types ums in
    Ok (RLabels y, - energy).

(** [inference_ad3], 338-431; the exception is raised only for several node types *)
Definition inference_ad3 (b : backends) (pb : problem) (relaxed : bool) (bnb : value) (exc : bool) : res (result * Qc) :=
  let! lib := imported (b_ad3 b) in
  match pb with
  | Multi Us ps edges =>
      let! r := ad3_graphs lib Us edges ps bnb in
      multi_answer r relaxed exc
  | Single U p edges =>
      let! v := validate_params U p (length edges) in
      let! r := ad3_graph lib U edges (snd v) bnb in
      single_answer r relaxed (Some (mrows U, mcols U))
  end.

(** [inference_ad3plus], 434-538 *)
Definition inference_ad3plus (b : backends) (pb : problem) (relaxed : bool) (bnb : value) (cons : value) (exc : bool)
  : res (result * Qc) :=
  let! lib := imported (b_ad3 b) in
  match pb with
  | Multi Us ps edges =>
      let! r := ad3_constraineds lib Us edges ps cons bnb in
      multi_answer r relaxed exc
  | Single U p edges =>
      let! r := ad3_constrained lib U edges p cons bnb in
      let! _ := ensure (negb (exc && not_integral (snd r) && negb relaxed)) InferenceException in
      single_answer r relaxed None
  end.

(** ** Dispatch *)

(** The argument inference_method: a name, or a pair (name, options). *)
Inductive method := Name (s : string) | WithOptions (s : string) (kw : kwargs).

(** Options of a wrong type raise TypeError (numpy's own treatment of such values is not modelled). *)
Definition as_nat (v : value) : res nat := match v with VInt n => Ok n | VBool b => Ok (if b then 1 else 0)%nat | _ => Err TypeError end.
Definition as_num (v : value) : res Qc :=
  match v with VInt n => Ok (ofN n) | VNum q => Ok q | VBool b => Ok (ind b) | _ => Err TypeError end.
Definition as_str (v : value) : string := match v with VStr s => s | _ => EmptyString end.

(** Array attributes of a list: AttributeError. *)
Definition single (pb : problem) : res (mat * pairwise * list (nat * nat)) :=
  match pb with Single U p e => Ok (U, p, e) | Multi _ _ _ => Err AttributeError end.

Definition with_energy (return_energy : bool) (r : res (result * Qc)) : res (result * option Qc) :=
  let! a := r in Ok (fst a, if return_energy then Some (snd a) else None).
Definition labels_only (r : res (list nat)) : res (result * option Qc) :=
  let! y := r in Ok (RLabels y, None).

(** lines 98-122, after the options have been merged *)
Definition dispatch_name (b : backends) (pb : problem) (m : string) (return_energy : bool) (kw : kwargs)
  : res (result * option Qc) :=
  if String.eqb m "qpbo" then
    let! _ := check_call positional [] true kw in
    let! _ := imported (b_qpbo b) in
    let! s := single pb in let '(U, p, edges) := s in
    labels_only (inference_qpbo b U p edges)
  else if String.eqb m "lp" then
    let! _ := check_call ("return_energy" :: positional) ["relaxed"] true kw in
    let! s := single pb in let '(U, p, edges) := s in
    let! r := inference_lp (b_lp b) U p edges (truthy (kw_default kw "relaxed" (VBool false))) in
    with_energy return_energy
      (Ok (match fst r with Labels y => RLabels y | Marginals um pm => RMarginals um pm end, snd r))
  else if String.eqb m "ad3" then
    let! _ := check_call ("return_energy" :: positional)
                ["relaxed"; "verbose"; "branch_and_bound"; "inference_exception"] false kw in
    with_energy return_energy
      (inference_ad3 b pb (truthy (kw_default kw "relaxed" (VBool false)))
         (kw_default kw "branch_and_bound" (VBool false)) (truthy (kw_default kw "inference_exception" VNone)))
  else if String.eqb m "ad3+" then
    let! _ := check_call ["return_energy"; "l_unary_potentials"; "l_pairwise_potentials"; "l_edges"]
                ["relaxed"; "verbose"; "branch_and_bound"; "constraints"; "inference_exception"] false kw in
    with_energy return_energy
      (inference_ad3plus b pb (truthy (kw_default kw "relaxed" (VBool false)))
         (kw_default kw "branch_and_bound" (VBool false)) (kw_default kw "constraints" VNone)
         (truthy (kw_default kw "inference_exception" VNone)))
  else if String.eqb m "ogm" then
    let! _ := check_call ("return_energy" :: positional) ["alg"; "init"; "reserveNumFactorsPerVariable"] true kw in
    let! _ := imported (b_ogm b) in
    let! s := single pb in let '(U, p, edges) := s in
    let! r := inference_ogm b U p edges (as_str (kw_default kw "alg" (VStr "dd"))) (kw_default kw "init" VNone) in
    with_energy return_energy (Ok (RLabels (fst r), snd r))
  else if String.eqb m "unary" then
    let! _ := check_call positional ["verbose"] true kw in
    let! s := single pb in let '(U, p, edges) := s in
    labels_only (inference_unaries U p edges)
  else if String.eqb m "max-product" then
    let! _ := check_call positional ["max_iter"; "damping"; "tol"; "relaxed"] false kw in
    let! s := single pb in let '(U, p, edges) := s in
    let! mi := as_nat (kw_default kw "max_iter" (VInt 30)) in
    let! da := as_num (kw_default kw "damping" (VNum (Q2Qc (1 # 2)))) in
    let! tol := as_num (kw_default kw "tol" (VNum default_tol)) in
    labels_only (inference_max_product U p edges mi da tol)
  else Err ValueError.

(** [inference_dispatch], 38-122 *)
Definition inference_dispatch (b : backends) (pb : problem) (m : method) (return_energy : bool) (kw : kwargs)
  : res (result * option Qc) :=
  match m with
  | Name s => dispatch_name b pb s return_energy kw
  | WithOptions s opts => dispatch_name b pb s return_energy (kw_update kw opts)
  end.

(** [get_installed], 7-27: a 1 x 1 problem without edges; only ImportError is caught *)
Definition trivial_problem (m : string) : problem :=
  Single (Mat 1 1 [[0]]) (if String.eqb m "ad3+" then Pw3 0 1 1 [] else Pw2 (Mat 1 1 [[0]])) [].
Fixpoint try_methods (b : backends) (l : list string) : res (list string) :=
  match l with
  | [] => Ok []
  | m :: r =>
      match inference_dispatch b (trivial_problem m) (Name m) false [] with
      | Ok _ => let! rest := try_methods b r in Ok (m :: rest)
      | Err ImportError => try_methods b r
      | Err e => Err e
      end
  end.
Definition default_methods : list string := ["max-product"; "ad3"; "ad3+"; "qpbo"; "ogm"; "lp"].
Definition get_installed (b : backends) (filter : option (list string)) : res (list string) :=
  try_methods b (match filter with Some l => l | None => default_methods end).
