(** Compression of operator chains: the same operator over smaller bonds. Independent of the functions of the code. *)
From Verif Require Import Base Quantity Ring SpecIndex Dense BTensor SpecBTensor SpecChain SpecSector.
Set Implicit Arguments.

(** Chains of dense tensors with the same physical dimensions and matrix elements; [x], [y]: sizes of the outer bonds. *)
Definition same_operator {R : ring} (l l' : list (dense R)) (x y : nat) : Prop :=
  map (@size R 1) l' = map (@size R 1) l /\ map (@size R 3) l' = map (@size R 3) l /\
  forall out inn a b, in_range (map (@size R 1) l) out = true -> in_range (map (@size R 3) l) inn = true -> a < x -> b < y ->
    op_amp l' out inn a b = op_amp l out inn a b.

Section B.
  Context {G : abgroup} {R : ring}.
  (** The dimension towards the right neighbour. *)
  Definition right_leg (A : btensor G R) : list nat * list G := nth 2 (blegs A) ([], []).
  (** The two physical dimensions. *)
  Definition phys_legs (A : btensor G R) : (list nat * list G) * (list nat * list G) := (nth 1 (blegs A) ([], []), nth 3 (blegs A) ([], [])).
  (** Every quantity of the bond [k] occurs in the operator of the sites [l] to its left: for some element with this quantity
      there is a matrix element other than zero. And there is such a quantity. *)
  Definition bond_reached (l : list (dense R)) (x : nat) (k : list nat * list G) : Prop :=
    fst k <> [] /\ forall b, b < length (fst k) -> exists out inn a y,
      in_range (map (@size R 1) l) out = true /\ in_range (map (@size R 3) l) inn = true /\ a < x /\ carries k y (nth b (snd k) (qe G)) /\
      op_amp l out inn a y <> rz.
  (** ... for all bonds between two sites of the chain. *)
  Definition bonds_reached (sites : list (btensor G R)) (Ds : list (dense R)) (x : nat) : Prop :=
    forall i A, nth_error sites i = Some A -> S i < length sites -> bond_reached (firstn (S i) Ds) x (right_leg A).
  (** The bonds between two sites of the second chain have distinct quantities, no more sections than those of the first chain,
      and are no larger. *)
  Definition compressed (sites sites' : list (btensor G R)) : Prop :=
    forall i A A', nth_error sites i = Some A -> nth_error sites' i = Some A' -> S i < length sites ->
      NoDup (snd (right_leg A')) /\ length (fst (right_leg A')) <= length (fst (right_leg A)) /\ bsz G (right_leg A') <= bsz G (right_leg A).
End B.
