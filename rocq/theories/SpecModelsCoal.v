(** Bonds of compressed operator chains, independent of the functions of the code. *)
From Verif Require Import Base Quantity Ring Dense BTensor SpecBTensor SpecChain SpecCoalesce.
(** Every bond between two sites has distinct quantities and at most [k] elements. *)
Definition small_bonds {G : abgroup} {R : ring} (k : nat) (Ts : list (btensor G R)) : Prop :=
  forall i T, nth_error Ts i = Some T -> S i < length Ts -> NoDup (snd (right_leg T)) /\ length (fst (right_leg T)) <= k /\ bsz G (right_leg T) <= k.
