(** Conserved quantities of the amplitudes of a chain of block tensors. *)
From Verif Require Import Base Quantity QuantityProofs Ring SpecIndex Dense BTensor SpecBTensor SpecChain.
Set Implicit Arguments.

(** Element [x] of the dimension carries quantity [c]. *)
Definition carries {G : abgroup} (l : list nat * list G) (x : nat) (c : G) : Prop :=
  exists b o, located (fst l) x b o /\ nth b (snd l) (qe G) = c.
(** Quantities of a physical configuration. *)
Definition config_carries {G : abgroup} {R : ring} (l : list (btensor G R)) (s : list nat) (cs : list G) : Prop :=
  length s = length l /\ length cs = length l /\
  forall i A, nth_error l i = Some A -> carries (nth 1 (blegs A) ([], [])) (nth i s 0) (nth i cs (qe G)).
