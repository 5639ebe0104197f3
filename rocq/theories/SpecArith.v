(** Independent meaning of a signed dimension number and of two tensors being the same. *)
From Verif Require Import Base Quantity Ring SpecFlatMap Index SpecIndex Dense BTensor SpecBTensor.
From Coq Require Import Permutation.
Set Implicit Arguments.

(** [x] names dimension [k] of a tensor of rank [r], counted from the end when negative. *)
Definition names_dim (r : nat) (x : Z) (k : nat) : Prop :=
  (- Z.of_nat r <= x < Z.of_nat r)%Z /\ (Z.of_nat k = x \/ Z.of_nat k = x + Z.of_nat r)%Z /\ k < r.
(** [inp] names the dimensions [p], each exactly once. *)
Definition names_perm (r : nat) (inp : list Z) (p : list nat) : Prop := Forall2 (names_dim r) inp p /\ Permutation p (seq 0 r).

(** Same structure and the same blocks, each with the same elements. *)
Definition same_tensor G R (T T' : btensor G R) : Prop :=
  same_meta T T' /\
  forall k, match assoc leqb k (b_blocks T), assoc leqb k (b_blocks T') with
            | None, None => True
            | Some t, Some t' => deq t t'
            | _, _ => False
            end.
