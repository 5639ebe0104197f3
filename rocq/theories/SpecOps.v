(** Operators of definite quantity. *)
From Verif Require Import Base Quantity QuantityProofs Ring SpecIndex Dense BTensor SpecBTensor SpecChain SpecSector SpecModelsBlock.
Set Implicit Arguments.

Section Spec.
  Context {G : abgroup} {R : ring}.
  Notation bt := (btensor G R).
  (** All elements of [t] other than zero carry the quantity [r] in the structure [T]. *)
  Definition definite (T : bt) (t : dense R) (r : G) : Prop :=
    forall i cs, in_range (dsh t) i = true -> carried T i cs -> dv t i <> rz -> qprod G cs = r.
  (** [T] is a structure for operators on a space with dimension [x]: no blocks, rows [x] and columns dual to it. *)
  Definition op_shape (x : list nat * list G) (T : bt) : Prop :=
    meta_ok T /\ b_blocks T = [] /\ blegs T = [x; bdual G x].
  (** [C] is the operator [t] on that space, with quantity [r]. *)
  Definition op_is (x : list nat * list G) (t : dense R) (r : G) (C : bt) : Prop :=
    valid C /\ blegs C = [x; bdual G x] /\ dense_form C t /\ b_rule C = r.
End Spec.

(** Two by two matrices. *)
Section Spin.
  Context {R : ring}.
  (** Equal matrices. *)
  Definition meq (d : nat) (A B : nat -> nat -> R) : Prop := forall p q, p < d -> q < d -> A p q = B p q.
  (** The vector [A v], for a vector given by its components. *)
  Definition mapply (d : nat) (A : nat -> nat -> R) (v : nat -> R) : nat -> R := fun p => sumf R (fun r => rmul (A p r) (v r)) (seq 0 d).
  (** [v] is a vector other than zero, multiplied by [l] by [A]. *)
  Definition eigenvector (d : nat) (A : nat -> nat -> R) (l : R) (v : nat -> R) : Prop :=
    (exists p, p < d /\ v p <> rz) /\ forall p, p < d -> mapply d A v p = rmul l (v p).
  (** What the documentation of [pauli] says of the lowering operator: it takes every state with the higher value of Sz to one
      with the lower value, and destroys those with the lower value. *)
  Definition lowers (Sz lo : nat -> nat -> R) : Prop :=
    (forall v, eigenvector 2 Sz ro v -> eigenvector 2 Sz (ropp ro) (mapply 2 lo v)) /\
    (forall v, eigenvector 2 Sz (ropp ro) v -> forall p, p < 2 -> mapply 2 lo v p = rz).
End Spin.
