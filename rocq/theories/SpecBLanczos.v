(** Two sites of block tensors between environments; independent of the functions of the code. *)
From Verif Require Import Base Quantity Ring SpecFlatMap Index SpecIndex Dense BTensor SpecBTensor SpecChain.
Set Implicit Arguments.

(** Two runs end the same way, with related results. *)
Definition same_outcome {A B} (P : A -> B -> Prop) (r : result A) (r' : result B) : Prop :=
  match r, r' with Ok a, Ok b => P a b | Throw e, Throw e' => e = e' | UB, UB => True | _, _ => False end.

Section S.
  Variable G : abgroup.
  Variable R : ring.
  Notation bt := (btensor G R).
  Notation tl := (@blegs G R).
  Notation dual := (@bdual G).
  (** Dimensions that can be contracted: left and right environment, Hamiltonian of two sites, state. *)
  Definition bfits (L H E s : bt) : Prop := exists x p p' x' o o',
    tl L = [x; o; dual x] /\ tl s = [dual x; p; p'; x'] /\ tl H = [dual o; p; p'; o'; dual p; dual p'] /\ tl E = [dual x'; dual o'; x'].
  (** The Hamiltonian and its environments change no quantity. *)
  Definition conserving (L H E : bt) : Prop := qop G (b_rule L) (qop G (b_rule H) (b_rule E)) = qe G.
  Definition has (T : bt) (k : list nat) : Prop := assoc leqb k (b_blocks T) <> None.
  (** Blocks of [P] compared with those of [s]: one is common, and none of [P] comes before the first of [s]. *)
  Definition reached (P s : bt) : Prop := (exists k, has P k /\ has s k) /\ forall k, has P k -> exists k', has s k' /\ lexb k k' = false.
End S.
