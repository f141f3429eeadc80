(** Model of pystruct/models/graph_crf.py (GraphCRF) on an initialised model. *)
From Verif Require Export Model.Common Model.Sym.

Record graph_crf := GraphCRF { g_states : nat; g_features : nat; g_directed : bool }.

(** An instance x = (features, edges). *)
Record graph_x := GraphX { gx_features : mat; gx_edges : list (nat * nat) }.

(** A labelling: an integer array, or the (unary, pairwise) result of a relaxation,
    the latter as flat (raveled) data. *)
Inductive label :=
| Discrete (y : list nat)
| Relaxed (um : list Qc) (pw : list Qc).

(** [_set_size_joint_feature], graph_crf.py 95-104.  int(n*(n+1)/2) is exact. *)
Definition g_size (g : graph_crf) : nat :=
  let S := g_states g in let F := g_features g in
  if g_directed g then (S * F + S * S)%nat else (S * F + (S * (S + 1)) / 2)%nat.

(** [_check_size_w], base.py 21-24. *)
Definition check_size_w (size : nat) (w : list Qc) : res unit :=
  ensure (length w =? size)%nat ValueError.
(** [_check_size_x], crf.py 48-53. *)
Definition g_check_x (g : graph_crf) (x : graph_x) : res unit :=
  ensure (mcols (gx_features x) =? g_features g)%nat ValueError.

(** [_get_pairwise_potentials], graph_crf.py 112-133. *)
Definition g_pairwise (g : graph_crf) (x : graph_x) (w : list Qc) : res mat :=
  let! _ := check_size_w (g_size g) w in
  let! _ := g_check_x g x in
  let pw := skipn (g_states g * g_features g) w in
  if g_directed g then reshape pw (g_states g) (g_states g) else expand_sym pw.

(** [_get_unary_potentials], graph_crf.py 135-157. *)
Definition g_unary (g : graph_crf) (x : graph_x) (w : list Qc) : res mat :=
  let! _ := check_size_w (g_size g) w in
  let! _ := g_check_x g x in
  let! unary_params := reshape (firstn (g_states g * g_features g) w) (g_states g) (g_features g) in
  mat_mul (gx_features x) (mat_T unary_params).

(** pw.reshape(-1, S, S).sum(axis=0), graph_crf.py line 191 *)
Definition sum_pairwise (S : nat) (pw : list Qc) : res mat :=
  if ((S =? 0) || negb (length pw mod (S * S) =? 0))%nat then Err ValueError
  else Ok (mtab S S (fun a b => sumn (length pw / (S * S)) (fun e => get1 pw ((e * S + a) * S + b)))).

(** The marginals used by joint_feature, graph_crf.py 186-203:
    unary marginals (n_nodes x n_states) and accumulated pairwise (n_states x n_states). *)
Definition g_marginals (S : nat) (n_nodes : nat) (edges : list (nat * nat)) (y : label)
  : res (mat * mat) :=
  match y with
  | Relaxed um pw =>
      let! um' := reshape um n_nodes S in
      let! pw' := sum_pairwise S pw in
      Ok (um', pw')
  | Discrete yl =>
      let! _ := ensure (length yl =? n_nodes)%nat ValueError in   (* y.reshape(n_nodes) *)
      let! um := one_hot S yl in
      let! u0 := take_rows um (map fst edges) in
      let! u1 := take_rows um (map snd edges) in
      let! pw := mat_mul (mat_T u0) u1 in
      Ok (um, pw)
  end.

(** [joint_feature], graph_crf.py 159-212. *)
Definition g_joint_feature (g : graph_crf) (x : graph_x) (y : label) : res (list Qc) :=
  let! _ := g_check_x g x in
  let features := gx_features x in
  let! m := g_marginals (g_states g) (mrows features) (gx_edges x) y in
  let '(um, pw) := m in
  let! unaries_acc := mat_mul (mat_T um) features in
  let! pwv := (if g_directed g then Ok (ravel pw) else compress_sym pw true) in
  Ok (ravel unaries_acc ++ pwv).
