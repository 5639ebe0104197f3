(** Chains of operators with given physical dimensions and the dimensions of random chains, independent of the functions of the code. *)
From Verif Require Import Base Ring SpecIndex Dense Num.
Set Implicit Arguments.

Section S.
  Context {N : numeric}.
  Notation t := (dense N).
  (** Operators on sites of dimensions [ps], with bonds [o] and [o'] at the ends. *)
  Fixpoint ham_fit (hs : list t) (ps : list nat) (o o' : nat) : Prop :=
    match hs, ps with
    | [], [] => o = o'
    | h :: hs', p :: ps' => exists k, dsh h = [o; p; k; p] /\ ham_fit hs' ps' k o'
    | _, _ => False
    end.
  (** Bond in front of site [i] of a random chain of [len] sites. *)
  Definition bond_at (len bd i : nat) : nat := if (i =? 0) || (i =? len) then 1 else bd.
  Definition random_shape (len bd : nat) (ps : list nat) (i : nat) : list nat := [bond_at len bd i; nth i ps 0; bond_at len bd (i + 1)].
End S.
