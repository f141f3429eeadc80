(** A library that decides every node by itself, and a training set, for the examples. *)
From Coq Require Import ZArith String Lia.
From Verif Require Import Proofs.Arrays Spec.SingleTypeSpec Spec.AlikeSpec Model.Convert Model.Instances Proofs.SingleType2 Proofs.Alike.
#[local] Open Scope nat_scope.

Definition ex34_copy (U : mat) : mat := mtab (mrows U) (mcols U) (mget U).
Definition ex34_status (U : mat) : status := if (2 <? mrows U) then Fractional else Integral.
Definition ex34_one (U : mat) : ad3_answer mat := (ex34_copy U, ex34_copy U, 0%Qc, ex34_status U).
Definition ex34_many (Us : list mat) : ad3_answer (list mat) :=
  (map ex34_copy Us, map ex34_copy Us, 0%Qc, if existsb (fun U => 2 <? mrows U) Us then Fractional else Integral).
Definition ex34_lib : ad3_lib :=
  Ad3Lib (fun U _ _ _ => Ok (ex34_one U)) (fun Us _ _ _ => Ok (ex34_many Us)) (fun U _ _ _ _ => Ok (ex34_one U)) (fun Us _ _ _ _ => Ok (ex34_many Us)).
Definition ex34_b : backends := Backends (fun _ => Err NonFinite) None (fun z => z) None (Some ex34_lib).
Lemma ex34_lib_ok : one_graph_lib ex34_lib.
Proof.
  unfold one_graph_lib, ex34_lib, ex34_many, ex34_one. cbn [ad3_graph ad3_graphs ad3_constrained ad3_constraineds map existsb singly]. unfold ex34_status.
  repeat split; intros; try (rewrite orb_false_r; reflexivity);
    match goal with H : Ok _ = Ok _ |- _ => injection H as <- <- <- <- end; try reflexivity; apply mtab_ok.
Qed.
Definition ex34_g : ef_crf := EFCRF 2 2 2 [] [].
Definition q34 (l : list (list Z)) : list (list Qc) := map (map ofZ) l.
Definition ex34_x1 : ef_x := EFX (Mat 2 2 (q34 [[1; 2]; [3; -1]]%Z)) [(0, 1)] (Mat 1 2 (q34 [[1; 5]]%Z)).
Definition ex34_x2 : ef_x := EFX (Mat 3 2 (q34 [[1; 0]; [0; 1]; [-2; 1]]%Z)) [(0, 1); (2, 1)] (Mat 2 2 (q34 [[1; 5]; [0; 2]]%Z)).
Definition ex34_S : list (ef_x * list nat) := [(ex34_x1, [0; 1]); (ex34_x2, [1; 0; 1])].
Lemma Forall2_map {A B} (R : A -> B -> Prop) (f : A -> B) l : (forall a, In a l -> R a (f a)) -> Forall2 R l (map f l).
Proof. induction l as [|a l IH]; intro H; cbn; constructor; [apply H; left; reflexivity|apply IH; intros; apply H; right; assumption]. Qed.
Lemma alike_all b k nf ne cw meth exc S : (meth = "ad3" \/ meth = "ad3+")%string -> (forall lib, b_ad3 b = Some lib -> one_graph_lib lib) -> 0 < k -> 0 < ne ->
  Forall (fun p => ef_check_x (EFCRF k nf ne [] []) (fst p) = Ok tt /\ edges_exist (fst p) /\ labels_ok (EFCRF k nf ne [] []) (fst p) (snd p)) S ->
  alike_samples (ef_smodel (dispatch_solver b meth) (EFCRF k nf ne [] []) cw) (ty_smodel b (TyCRF [k] [nf] [[ne]] [cw] meth exc))
    S (map (fun p => (convert_single (fst p), snd p)) S).
Proof.
  intros HM HL Hk Hne H. split; [apply sizes_one|]. apply Forall2_map. intros [x y] Hp. rewrite Forall_forall in H. destruct (H _ Hp) as (C & E & L).
  cbn [fst snd] in *. apply alike_one; assumption.
Qed.
Lemma ex34_fits : Forall (fun p => ef_check_x ex34_g (fst p) = Ok tt /\ edges_exist (fst p) /\ labels_ok ex34_g (fst p) (snd p)) ex34_S.
Proof.
  repeat (apply Forall_cons || apply Forall_nil); (split; [reflexivity|split; [|split; [reflexivity|]]]); unfold edges_exist; cbn;
    repeat (apply Forall_cons || apply Forall_nil); cbn; lia.
Qed.
