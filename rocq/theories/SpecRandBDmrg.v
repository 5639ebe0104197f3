(** Operators that random chains are made for. *)
From Verif Require Import Base Quantity Ring SpecIndex Dense BTensor SpecBTensor SpecChain.
Set Implicit Arguments.

Section S.
  Context {G : abgroup} {R : ring}.
  Notation leg := (list nat * list G)%type.
  (** A chain of operators with the physical dimensions [ps] and edges [x] and [y]. *)
  Fixpoint bham_fit (hs : list (btensor G R)) (ps : list leg) (x y : leg) : Prop :=
    match hs, ps with
    | [], [] => x = y
    | h :: hs', p :: ps' => exists k, blegs h = [bdual G x; p; k; bdual G p] /\ bham_fit hs' ps' k y
    | _, _ => False
    end.
End S.
