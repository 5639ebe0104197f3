(** When two lists of matrices with their slices hold the same. *)
From Verif Require Import Base Ring Index SpecIndex Dense.
Set Implicit Arguments.

Section Alike.
  Context {R : ring}.
  Notation slice := (nat * (nat * nat))%type.
  (** Same shape, same elements. *)
  Definition alike (a b : dense R) : Prop := dsh a = dsh b /\ forall i, dv a i = dv b i.
  Definition alike_piece (a b : dense R * list slice * list slice) : Prop := alike (fst (fst a)) (fst (fst b)) /\ snd (fst a) = snd (fst b) /\ snd a = snd b.
  Definition alike_results {A} (rel : A -> A -> Prop) (x y : result A) : Prop :=
    match x, y with Ok a, Ok b => rel a b | Throw e, Throw e' => e = e' | UB, UB => True | _, _ => False end.
End Alike.
