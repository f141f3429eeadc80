(** Proofs for C79, second part: the instances. *)
From Coq Require Import String ZArith Lia.
From Verif Require Import Spec.TwoTypesSpec Proofs.Arrays Proofs.Snakes Proofs.HiddenSnakes2 Proofs.SwapTypes Proofs.SwapTypes2 Proofs.SwapTypes3 Proofs.TypedProofs Proofs.SwapTypes4 Proofs.TwoTypes.
Local Open Scope nat_scope.

Lemma patch_shape x m : neighborhood_feature x = Ok m -> mat_ok m /\ mrows m = a_h x * a_w x /\ mcols m = 45 /\ 0 < mrows m.
Proof.
  unfold neighborhood_feature. destruct ((a_c x =? 5) || (a_c x =? 1)); [|discriminate]. cbn [ensure bind].
  destruct (Nat.eqb_spec (a_h x * a_w x) 0) as [E|E]; cbn [negb ensure bind]; [discriminate|]. intros H. apply Ok_inj in H. subst m.
  split; [apply mtab_ok|]. unfold mtab. cbn [mrows mcols]. split; [reflexivity|]. split; [reflexivity|]. lia.
Qed.
Lemma prepared x d e : prepare_picture x = Ok (d, e) ->
  exists m, neighborhood_feature x = Ok m /\ ex_features e = m /\ ex_features d = m /\
    Forall (fun ab => fst ab < mrows m /\ snd ab < mrows m) (ex_edges e) /\
    mrows (ex_edge_features e) = length (ex_edges e) /\ mcols (ex_edge_features e) = 180.
Proof.
  unfold prepare_picture. destruct (make_grid_edge_lists (a_h x) (a_w x) 4) as [l|]; [|discriminate]. cbn [bind].
  destruct l as [|rt [|dn [|z l]]]; try discriminate.
  destruct (neighborhood_feature x) as [m|] eqn:Em; [|discriminate]. cbn [bind].
  destruct (edge_list_to_features [rt; dn]) as [dir|]; [|discriminate]. cbn [bind].
  destruct (snake_edge_features m rt dn) as [ef|] eqn:Ef; [|discriminate]. cbn [bind].
  intros H. apply Ok_inj in H. injection H as <- <-. exists m. split; [reflexivity|]. cbn [ex_features ex_edges ex_edge_features].
  split; [reflexivity|]. split; [reflexivity|].
  unfold snake_edge_features in Ef. destruct (forallb _ (rt ++ dn)) eqn:B; [|discriminate Ef]. cbn [ensure bind] in Ef.
  destruct (negb (length (rt ++ dn) =? 0)); [|discriminate Ef]. cbn [ensure bind] in Ef. apply Ok_inj in Ef. subst ef.
  split; [|split; [reflexivity|]].
  - apply Forall_forall. intros ab I. rewrite forallb_forall in B. specialize (B ab I). apply andb_prop in B as [B1 B2].
    apply Nat.ltb_lt in B1, B2. tauto.
  - unfold mtab. cbn [mcols]. destruct (patch_shape x m Em) as [_ [_ [-> _]]]. reflexivity.
Qed.

Lemma ravel_length y : length (lab_ravel y) = l_h y * l_w y.
Proof. unfold lab_ravel. rewrite map_length, prod_length, !seq_length. reflexivity. Qed.
Lemma ravel_nth y i j : i < l_h y -> j < l_w y -> nth (i * l_w y + j) (lab_ravel y) 0 = lget y i j.
Proof.
  intros Hi Hj. unfold lab_ravel.
  assert (L : i * l_w y + j < length (list_prod (seq 0 (l_h y)) (seq 0 (l_w y)))).
  { rewrite prod_length, !seq_length. apply flat_lt; assumption. }
  rewrite (nth_indep _ 0 (lget y (fst (0, 0)) (snd (0, 0)))) by (rewrite map_length; exact L).
  rewrite (map_nth (fun ij => lget y (fst ij) (snd ij))).
  pose proof (nth_list_prod (seq 0 (l_h y)) (seq 0 (l_w y)) i j 0 0) as N. rewrite !seq_length in N. rewrite N by assumption.
  cbn [fst snd]. rewrite !seq_nth by assumption. reflexivity.
Qed.
(** every position of the flat labels is that of a pixel *)
Lemma flat_cell h w k : k < h * w -> exists i j, i < h /\ j < w /\ k = i * w + j.
Proof.
  intros H. assert (w <> 0) by (intros ->; lia). exists (k / w), (k mod w).
  split; [apply Nat.div_lt_upper_bound; lia|]. split; [apply Nat.mod_upper_bound; assumption|]. rewrite Nat.mul_comm. apply Nat.div_mod. assumption.
Qed.

Definition snake_crf (g : ty_crf) (nCell : nat) : Prop :=
  well_typed g /\ ty_states g = [S nCell; 2] /\ ty_features g = [45; 7] /\ ty_edge_features g = [[180; 45]; [45; 0]].
Lemma setup_crf nCell m cw g : ty_setup 2 [S nCell; 2] [45; 7] [[180; 45]; [45; 0]] m cw = Ok g -> snake_crf g nCell.
Proof. intros E. destruct (setup_ok _ _ _ _ _ _ _ E) as [W [A [B [C _]]]]. unfold snake_crf. tauto. Qed.
Lemma setup_total nCell m : m = "ad3"%string \/ m = "ad3+"%string -> exists g, ty_setup 2 [S nCell; 2] [45; 7] [[180; 45]; [45; 0]] m None = Ok g.
Proof. intros [-> | ->]; eexists; reflexivity. Qed.

Section Convert.
Variables (nCell : nat) (x : arr3) (d e : ef_x) (lbl : lab2) (pf : mat) (pl : Z) (m : mat).
Hypothesis P : prepare_picture x = Ok (d, e).
Hypothesis M : neighborhood_feature x = Ok m.
Hypothesis Lh : l_h lbl = a_h x.
Hypothesis Lw : l_w lbl = a_w x.
Hypothesis Fr : mrows pf = 1.
Hypothesis Fc : mcols pf = 7.

Let tx := TypedX [Some m; Some pf]
             [Some (z_edges (ex_edges e)); Some (map (fun k => (Z.of_nat k, 0%Z)) (seq 0 (mrows m))); None; None]
             [Some (ex_edge_features e); Some m; None; None].
Let y := (map Z.of_nat (lab_ravel lbl) ++ [pl + Z.of_nat nCell + 1]%Z)%list.
Lemma two_types_eq : two_types nCell x e lbl pf pl = Ok (tx, y).
Proof. destruct (prepared _ _ _ P) as [m0 [E [F _]]]. rewrite M in E. apply Ok_inj in E. subst m0. unfold two_types. rewrite F, M. reflexivity. Qed.

Lemma tx_rows : type_rows 2 tx = [mrows m; 1].
Proof. unfold type_rows. cbn [seq map]. unfold x_rows, tx. cbn [tx_nodes nth]. rewrite Fr. reflexivity. Qed.
Lemma size : mrows m = length (lab_ravel lbl).
Proof. destruct (patch_shape x m M) as [_ [-> _]]. rewrite ravel_length, Lh, Lw. reflexivity. Qed.
Lemma y_length : length y = mrows m + 1.
Proof. unfold y. rewrite app_length, map_length, <- size. reflexivity. Qed.
Lemma y_pixel k : k < mrows m -> nth k y 0%Z = Z.of_nat (nth k (lab_ravel lbl) 0).
Proof.
  intros H. unfold y. rewrite app_nth1 by (rewrite map_length, <- size; exact H). change 0%Z with (Z.of_nat 0). apply map_nth.
Qed.
Lemma y_picture : nth (mrows m) y 0%Z = (pl + Z.of_nat nCell + 1)%Z.
Proof. unfold y. rewrite app_nth2 by (rewrite map_length, <- size; apply Nat.le_refl). rewrite map_length, <- size, Nat.sub_diag. reflexivity. Qed.

Lemma tx_instance g : snake_crf g nCell -> typed_instance g tx.
Proof.
  intros [_ [Es [Ef Ee]]]. destruct (prepared _ _ _ P) as [m0 [E [F [_ [R [L C]]]]]]. rewrite M in E. apply Ok_inj in E. subst m0.
  destruct (patch_shape x m M) as [_ [_ [Mc Mp]]].
  unfold typed_instance. rewrite Es, Ef, Ee. cbn [length]. split; [cbn; lia|]. split; [reflexivity|]. split; [cbn; lia|]. split.
  - intros [|[|t]] q Ht H; cbn in H; try lia; injection H as <-; cbn; assumption.
  - intros [|[|a]] [|[|b]] Ha Hb; try lia; unfold x_edges, x_edge_rows, x_rows; cbn [tx tx_nodes tx_edges tx_edge_features nth Nat.mul Nat.add].
    + split; [|split].
      * unfold z_edges. rewrite Forall_map. apply Forall_forall. intros q Hq. rewrite Forall_forall in R. specialize (R q Hq). cbn [fst snd]. lia.
      * unfold z_edges. rewrite map_length. exact L.
      * intros q H. injection H as <-. exact C.
    + split; [|split].
      * rewrite Forall_map. apply Forall_forall. intros q Hq. apply in_seq in Hq. cbn [fst snd]. rewrite Fr. lia.
      * rewrite map_length, seq_length. reflexivity.
      * intros q H. injection H as <-. exact Mc.
    + split; [constructor|]. split; [reflexivity|]. intros q H. discriminate H.
    + split; [constructor|]. split; [reflexivity|]. intros q H. discriminate H.
Qed.
Lemma tx_labelling : typed_labelling [S nCell; 2] (type_rows 2 tx) y <->
  (forall i j, i < l_h lbl -> j < l_w lbl -> lget lbl i j <= nCell) /\ (0 <= pl <= 1)%Z.
Proof.
  rewrite tx_rows. unfold typed_labelling. rewrite y_length.
  assert (A : forall k, before [mrows m; 1] 0 + k = k) by reflexivity.
  assert (B : before [mrows m; 1] 1 = mrows m) by (unfold before; cbn; lia).
  assert (S1 : before [S nCell; 2] 1 = S nCell) by (unfold before; cbn; lia).
  split.
  - intros [_ H]. split.
    + intros i j Hi Hj. assert (K : i * l_w lbl + j < mrows m) by (rewrite size, ravel_length; apply flat_lt; assumption).
      specialize (H 0 (i * l_w lbl + j) ltac:(cbn; lia) K). rewrite A, (y_pixel _ K), (ravel_nth _ _ _ Hi Hj) in H.
      unfold before, part in H. cbn in H. lia.
    + specialize (H 1 0 ltac:(cbn; lia) ltac:(unfold part; cbn; lia)). rewrite B, Nat.add_0_r, y_picture, S1 in H. unfold part in H. cbn [nth] in H. lia.
  - intros [H1 H2]. split; [cbn; lia|]. intros [|[|t]] i Ht Hi; [| |cbn in Ht; lia].
    + unfold part in Hi. cbn [nth] in Hi. rewrite A, (y_pixel _ Hi).
      rewrite size, ravel_length in Hi. destruct (flat_cell _ _ _ Hi) as [a [b [Ha [Hb ->]]]]. rewrite (ravel_nth _ _ _ Ha Hb).
      specialize (H1 a b Ha Hb). unfold before, part. cbn [firstn list_sum fold_right nth]. lia.
    + unfold part in Hi. cbn [nth] in Hi. assert (i = 0) by lia. subst i. rewrite B, Nat.add_0_r, y_picture, S1. unfold part. cbn [nth]. lia.
Qed.
Lemma tx_lab_pixel k : k < mrows m -> typed_lab [S nCell; 2] (type_rows 2 tx) y 0 k = nth k (lab_ravel lbl) 0.
Proof.
  intros H. rewrite tx_rows. unfold typed_lab. change (before [mrows m; 1] 0 + k) with k. rewrite (y_pixel k H).
  change (before [S nCell; 2] 0) with 0. rewrite Z.sub_0_r. apply Nat2Z.id.
Qed.
Lemma tx_lab_picture : typed_lab [S nCell; 2] (type_rows 2 tx) y 1 0 = Z.to_nat pl.
Proof.
  rewrite tx_rows. unfold typed_lab. replace (before [mrows m; 1] 1 + 0) with (mrows m) by (clear; unfold before; cbn; lia). rewrite y_picture.
  f_equal. unfold before. cbn [firstn list_sum fold_right]. clear; lia.
Qed.

Lemma sum2 (f : nat -> Qc) : sumn 2 f = (f 0%nat + f 1%nat)%Qc.
Proof. rewrite !sumn_S. unfold sumn. cbn. ring. Qed.
Lemma sum1 (f : nat -> Qc) : sumn 1 f = f 0.
Proof. rewrite !sumn_S. unfold sumn. cbn. ring. Qed.
Lemma tx_score g (w : list Qc) : snake_crf g nCell -> length w = ty_size g -> (0 <= pl <= 1)%Z ->
  (forall i j, i < l_h lbl -> j < l_w lbl -> lget lbl i j <= nCell) ->
  let K := S nCell in let n := mrows m in let L := lab (lab_ravel lbl) in let wp := pixel_weights K w in
  ty_score g tx w y =
  (score n (ex_edges e) (fun k s => unary_score 45 wp (mget m k) s)
     (fun i s t => edge_score 180 K 45 wp (mget (ex_edge_features e) i) s t) L +
   sumn 7 (fun f => mget pf 0 f * get1 w (K * 45 + (Z.to_nat pl * 7 + f))) +
   sumn n (fun k => sumn 45 (fun f =>
     mget m k f * get1 w (K * 45 + 2 * 7 + 180 * (K * K) + (f * (K * 2) + (L k * 2 + Z.to_nat pl))))))%Qc.
Proof.
  intros G Hw Hp Hl K n L wp. destruct (prepared _ _ _ P) as [m0 [E [F [_ [R _]]]]]. rewrite M in E. apply Ok_inj in E. subst m0.
  assert (HL : forall k, k < n -> L k < K).
  { intros k Hk. unfold n in Hk. rewrite size, ravel_length in Hk. destruct (flat_cell _ _ _ Hk) as [a [b [Ha [Hb ->]]]].
    unfold L, lab. rewrite (ravel_nth _ _ _ Ha Hb). specialize (Hl a b Ha Hb). unfold K. lia. }
  destruct G as [_ [Es [Ef Ee]]].
  assert (Lw1 : K * 45 <= length w).
  { rewrite Hw. unfold ty_size, ty_size_unaries. rewrite Es, Ef. cbn [combine map fst snd list_sum fold_right]. unfold K. lia. }
  assert (N0 : node_start g 0 = 0) by reflexivity.
  assert (N1 : node_start g 1 = K * 45).
  { unfold node_start. cbn [seq map list_sum fold_right]. rewrite Es, Ef. unfold part. cbn [nth]. unfold K. lia. }
  assert (N2 : node_start g 2 = K * 45 + 2 * 7).
  { unfold node_start. cbn [seq map list_sum fold_right]. rewrite Es, Ef. unfold part. cbn [nth]. unfold K. lia. }
  assert (P00 : pair_size g 0 0 = 180 * (K * K)).
  { unfold pair_size. rewrite Es, Ee. unfold part. cbn [nth]. reflexivity. }
  assert (E00 : edge_start g 0 0 = K * 45 + 2 * 7).
  { unfold edge_start. rewrite Es. cbn [length]. rewrite N2. unfold pair_row. cbn [seq map list_sum fold_right]. lia. }
  assert (E01 : edge_start g 0 1 = K * 45 + 2 * 7 + 180 * (K * K)).
  { unfold edge_start. rewrite Es. cbn [length]. rewrite N2. unfold pair_row. cbn [seq map list_sum fold_right]. rewrite P00. lia. }
  assert (U : forall k s, s < K -> type_score g w 0 (x_feat tx 0 k) s = unary_score 45 wp (mget m k) s).
  { intros k s Hs. unfold type_score, unary_score. rewrite Ef, N0. unfold part. cbn [nth]. apply sumn_ext. intros f Hf.
    unfold x_feat, tx. cbn [tx_nodes nth]. rewrite Qcmult_comm. f_equal. unfold wp, pixel_weights. cbn [Nat.add].
    assert (A : s * 45 + f < K * 45) by (apply flat_lt; assumption).
    unfold get1. rewrite app_nth1 by (rewrite firstn_length; lia). symmetry. apply get1_firstn. exact A. }
  assert (W : forall i s t, s < K -> t < K -> pair_types_score g w 0 0 (x_edge_feat 2 tx 0 0 i) s t = edge_score 180 K 45 wp (mget (ex_edge_features e) i) s t).
  { intros i s t Hs Ht. unfold pair_types_score, edge_score. rewrite Es, Ee, E00. unfold part. cbn [nth]. fold K. apply sumn_ext. intros f Hf.
    unfold x_edge_feat, tx. cbn [tx_edge_features Nat.mul Nat.add nth]. f_equal. unfold edge_weight, wp, pixel_weights.
    assert (A : f * (K * K) + (s * K + t) < 180 * (K * K)) by (apply flat_lt; [exact Hf|apply flat_lt; assumption]).
    unfold get1 at 2. rewrite app_nth2 by (rewrite firstn_length; lia). rewrite firstn_length, Nat.min_l by exact Lw1.
    replace (K * 45 + (f * (K * K) + (s * K + t)) - K * 45) with (f * (K * K) + (s * K + t)) by lia.
    symmetry. apply get1_slice. lia. }
  unfold ty_score, typed_score. rewrite Es. cbn [length]. rewrite !sum2.
  assert (X0 : x_rows tx 0 = n) by reflexivity. assert (X1 : x_rows tx 1 = 1) by exact Fr. rewrite X0, X1, sum1.
  assert (D00 : x_edges 2 tx 0 0 = z_edges (ex_edges e)) by reflexivity.
  assert (D01 : x_edges 2 tx 0 1 = map (fun k => (Z.of_nat k, 0%Z)) (seq 0 n)) by reflexivity.
  assert (D10 : x_edges 2 tx 1 0 = []) by reflexivity. assert (D11 : x_edges 2 tx 1 1 = []) by reflexivity.
  rewrite D00, D01, D10, D11. unfold z_edges. rewrite !map_length, seq_length. cbn [length].
  assert (Z0 : forall f : nat -> Qc, sumn 0 f = 0%Qc) by reflexivity. rewrite !Z0.
  set (T := typed_lab [S nCell; 2] (type_rows 2 tx) y).
  assert (T0 : forall k, k < n -> T 0 k = L k) by (intros k Hk; exact (tx_lab_pixel k Hk)).
  assert (T1 : T 1 0 = Z.to_nat pl) by exact tx_lab_picture. rewrite T1.
  assert (S1 : sumn n (fun i => type_score g w 0 (x_feat tx 0 i) (T 0 i)) = sumn n (fun k => unary_score 45 wp (mget m k) (L k))).
  { apply sumn_ext. intros k Hk. rewrite (T0 k Hk). apply U. exact (HL k Hk). }
  assert (S2 : type_score g w 1 (x_feat tx 1 0) (Z.to_nat pl) = sumn 7 (fun f => mget pf 0 f * get1 w (K * 45 + (Z.to_nat pl * 7 + f)))%Qc).
  { unfold type_score. rewrite Ef, N1. reflexivity. }
  assert (S3 : sumn (length (ex_edges e)) (fun i => pair_types_score g w 0 0 (x_edge_feat 2 tx 0 0 i)
                 (T 0 (Z.to_nat (fst (nth i (map (fun q => (Z.of_nat (fst q), Z.of_nat (snd q))) (ex_edges e)) (0, 0)%Z))))
                 (T 0 (Z.to_nat (snd (nth i (map (fun q => (Z.of_nat (fst q), Z.of_nat (snd q))) (ex_edges e)) (0, 0)%Z))))) =
               sumn (length (ex_edges e)) (fun i => edge_score 180 K 45 wp (mget (ex_edge_features e) i)
                 (L (fst (nth i (ex_edges e) (0, 0)))) (L (snd (nth i (ex_edges e) (0, 0)))))).
  { apply sumn_ext. intros i Hi. 
    assert (Q : nth i (map (fun q => (Z.of_nat (fst q), Z.of_nat (snd q))) (ex_edges e)) (0, 0)%Z =
                (Z.of_nat (fst (nth i (ex_edges e) (0, 0))), Z.of_nat (snd (nth i (ex_edges e) (0, 0)))))
      by exact (map_nth (fun q => (Z.of_nat (fst q), Z.of_nat (snd q))) (ex_edges e) (0, 0) i).
    rewrite Q. cbn [fst snd]. rewrite !Nat2Z.id.
    rewrite Forall_forall in R. destruct (R (nth i (ex_edges e) (0, 0)) (nth_In _ _ Hi)) as [R1 R2].
    rewrite !T0 by assumption. apply W; apply HL; assumption. }
  assert (S4 : sumn n (fun i => pair_types_score g w 0 1 (x_edge_feat 2 tx 0 1 i)
                 (T 0 (Z.to_nat (fst (nth i (map (fun k => (Z.of_nat k, 0%Z)) (seq 0 n)) (0, 0)%Z))))
                 (T 1 (Z.to_nat (snd (nth i (map (fun k => (Z.of_nat k, 0%Z)) (seq 0 n)) (0, 0)%Z))))) =
               sumn n (fun k => sumn 45 (fun f =>
                 mget m k f * get1 w (K * 45 + 2 * 7 + 180 * (K * K) + (f * (K * 2) + (L k * 2 + Z.to_nat pl)))))%Qc).
  { apply sumn_ext. intros k Hk. rewrite (nth_map_seq (fun k => (Z.of_nat k, 0%Z)) n k) by exact Hk. cbn [fst snd].
    rewrite Nat2Z.id, (T0 k Hk). change (Z.to_nat 0) with 0. rewrite T1. unfold pair_types_score. rewrite Es, Ee, E01. reflexivity. }
  rewrite S1, S2, S3, S4. unfold score. ring.
Qed.
End Convert.
