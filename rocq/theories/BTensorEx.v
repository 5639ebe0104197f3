(** Concrete tensors used by the examples and refutations, and a computable way to establish their validity. *)
From Verif Require Import Base Quantity QuantityProofs FlatMap SpecFlatMap FlatMapProofs Ring Index SpecIndex IndexProofs
  Dense BTensor SpecBTensor LegsProofs BTensorProofs BTensorThms.
From Coq Require Import Sorted.
Set Implicit Arguments.

Fixpoint sortedb (l : list (list nat)) : bool :=
  match l with
  | a :: (b :: _) as r => lexb a b && sortedb r
  | _ => true
  end.
Lemma sortedb_ok V (l : list (list nat * V)) : sortedb (map fst l) = true -> sorted lexb l.
Proof.
  intros H. apply Sorted_StronglySorted.
  - intros x y z; apply lexb_trans.
  - induction l as [|x [|y l] IH]; [constructor|repeat constructor|].
    cbn [map sortedb] in H. apply andb_true_iff in H as [H1 H2]. constructor; [apply IH; exact H2|constructor; exact H1].
Qed.
Lemma valid_by_check G R (T : btensor G R) : length (b_cv T) = sum_list (b_sbd T) -> sortedb (map fst (b_blocks T)) = true ->
  check_tensor T = Ok true -> valid T.
Proof.
  intros H1 H2 H3. apply check_tensor_true in H3 as [A [B C]]; auto. split; [split; auto|]. split; auto. apply sortedb_ok; auto.
Qed.
(** Proves [valid T] for a closed tensor by running the check. *)
Ltac ex_valid := apply valid_by_check; vm_compute; reflexivity.

Definition zq (z : Z) (p : z_legal z = true) : z_group := exist _ z p.
Notation "'q' z" := (zq z eq_refl) (at level 8, z at level 8).

(** Dense tensor with the given shape and row-major entries. *)
Definition dl (sh : list nat) (l : list Z) : dense ring_Z := @mkD ring_Z sh (fun i => nth (rowmajor sh i) l 0%Z).

Notation zt := (btensor z_group ring_Z).
Notation zB := (@mkB z_group ring_Z).
(** 2x2 sections of sizes (1,2) x (2,1), quantities (0,1) x (0,-1), rule 0: blocks (0,0) and (1,1) are allowed. *)
Definition exA : zt :=
  zB (q 0) 2 [2; 2] [1; 2; 2; 1] [q 0; q 1; q 0; q (-1)]
    [([0; 0], dl [1; 2] [3; 4]%Z); ([1; 1], dl [2; 1] [5; 6]%Z)].
Lemma exA_valid : valid exA. Proof. ex_valid. Qed.
(** The same structure with one block only. *)
Definition exB : zt := with_blocks exA [([1; 1], dl [2; 1] [7; 8]%Z)].
Lemma exB_valid : valid exB. Proof. ex_valid. Qed.
(** All the elements of a dense tensor, in row-major order. *)
Definition elems (d : dense ring_Z) : list Z := map (dv d) (idxs (dsh d)).
Example exA_dense : rmap elems (to_dense exA) = Ok [3; 4; 0; 0; 0; 5; 0; 0; 6]%Z.
Proof. vm_compute. reflexivity. Qed.
