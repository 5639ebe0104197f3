(** Element types of chains of tensors. *)
From Verif Require Import Base Guard.
Set Implicit Arguments.

(** All tensors have the same element type. *)
Definition one_type (K T : Type) (ty : T -> K) (l : list T) : Prop := forall x y, In x l -> In y l -> ty x = ty y.
(** The blocks of a block tensor have the element type it declares. *)
Definition b_wf (K V S : Type) (x : bten K V S) : Prop := forall b, In b (b_bl x) -> t_ty (snd b) = b_opt x.
