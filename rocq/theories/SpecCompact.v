(** What it means to cut a list into ranges of like elements. *)
From Verif Require Import Base Quantity Ring SpecFlatMap Index SpecIndex Dense BTensor SpecBTensor.
Set Implicit Arguments.
(** The ranges, one after the other, are the list; none is empty; the elements of a range are alike, the last of a range and the first of the next are not. *)
Definition neighbours {A} (p : A -> A -> Prop) (L : list A) : Prop := forall pre x y post, L = pre ++ [x; y] ++ post -> p x y.
Definition cut_into {E} (alike : E -> E -> Prop) (L : list E) (rs : list (list E)) : Prop :=
  concat rs = L /\ Forall (fun r => r <> []) rs /\ Forall (fun r => forall x y, In x r -> In y r -> alike x y) rs /\
  neighbours (fun r r' => forall pre x y post, r = pre ++ [x] -> r' = y :: post -> ~ alike x y) rs.

(** What decides in which matrix a block goes: its indices but the last two, and the quantities of its sections in the last two dimensions. *)
Section Group.
  Context {G : abgroup} {R : ring}.
  Definition section_quantity (T : btensor G R) (d : nat) (idx : list nat) : G := nth (nth d idx 0) (nth d (qlegs T) []) (qe G).
  Definition group (T : btensor G R) (idx : list nat) : list nat * (G * G) :=
    (firstn (b_rank T - 2) idx, (section_quantity T (b_rank T - 2) idx, section_quantity T (b_rank T - 1) idx)).
  (** [r] lists the stored blocks of group [k], in the order in which they are stored. *)
  Definition blocks_of (T : btensor G R) (k : list nat * (G * G)) (r : list (list nat * dense R)) : Prop :=
    sorted lexb r /\ forall e, In e r <-> In e (b_blocks T) /\ group T (fst e) = k.
End Group.
