(** Dense tensors with a definite total quantity, and chains of operators in block form. *)
From Verif Require Import Base Quantity QuantityProofs Ring SpecIndex Dense BTensor SpecBTensor SpecChain SpecSector.
Set Implicit Arguments.

Section Spec.
  Context {G : abgroup} {R : ring}.
  Notation t := (btensor G R).
  (** The quantities carried by the components of the element [i] of the structure [T]. *)
  Definition carried (T : t) (i : list nat) (cs : list G) : Prop :=
    length i = length (blegs T) /\ length cs = length (blegs T) /\
    forall d, d < length (blegs T) -> carries (nth d (blegs T) ([], [])) (nth d i 0) (nth d cs (qe G)).
  (** Any block with an entry [x] passes the test. *)
  Definition visible (signif : dense R -> bool) (x : R) : Prop := forall d i, in_range (dsh d) i = true -> dv d i = x -> signif d = true.
  (** [x] is the only entry other than zero. *)
  Definition only (d : dense R) (x : R) : Prop :=
    (forall i, in_range (dsh d) i = true -> dv d i = rz \/ dv d i = x) /\
    (forall i j, in_range (dsh d) i = true -> in_range (dsh d) j = true -> dv d i <> rz -> dv d j <> rz -> i = j).
  (** A physical dimension with [d] elements. *)
  Definition phys_dim (d : nat) (P : t) : Prop :=
    meta_ok P /\ length (legs P) = 1 /\ sum_list (nth 0 (legs P) []) = d.
  Definition phys_carries (P : t) (x : nat) (c : G) : Prop := carries (nth 0 (blegs P) ([], [])) x c.
  (** The block tensors [Ts] denote the dense tensors [Ws]: neutral, with the dimension of [P] for rows and its dual for
      columns, and the right bond of each is the dual of the left bond of the next; [x] and [y] at the ends. *)
  Fixpoint block_mpo (P : t) (Ts : list t) (Ws : list (dense R)) (x y : list nat * list G) : Prop :=
    match Ts, Ws with
    | [], [] => x = y
    | T :: Ts', W :: Ws' => valid T /\ dense_form T W /\ b_rule T = qe G /\
        exists k, blegs T = [bdual G x; nth 0 (blegs P) ([], []); k; bdual G (nth 0 (blegs P) ([], []))] /\ block_mpo P Ts' Ws' k y
    | _, _ => False
    end.
  (** All bonds between two sites are [k]. *)
  Definition inner_bonds (Ts : list t) (k : list nat * list G) : Prop :=
    forall i T, nth_error Ts i = Some T -> S i < length Ts -> nth 2 (blegs T) ([], []) = k.
End Spec.
