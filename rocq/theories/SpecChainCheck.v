(** When a list of tensors is a chain; independent of the code. *)
From Verif Require Import Base Quantity Ring Index SpecIndex Dense BTensor SpecBTensor.
Set Implicit Arguments.

(** Consecutive elements are related. *)
Fixpoint linked {A} (P : A -> A -> Prop) (l : list A) : Prop :=
  match l with a :: (b :: _) as r => P a b /\ linked P r | _ => True end.
(** Lists of sizes: rank [r], and dimension 2 of each equal to dimension 0 of the next. *)
Definition sizes_chain (r : nat) (l : list (list nat)) : Prop :=
  (forall t, In t l -> length t = r) /\ linked (fun a b => nth 2 a 0 = nth 0 b 0) l.
(** Product of a list of integers, and of all its prefixes within 64 bits. *)
Definition zprod (l : list Z) : Z := fold_right Z.mul 1%Z l.
Definition prefixes_fit (l : list Z) : Prop := forall k, (- 2 ^ 63 <= zprod (firstn k l) < 2 ^ 63)%Z.

Section Block.
  Context {G : abgroup} {R : ring}.
  (** As many sections with inverse quantities; and with equal sizes. *)
  Definition bond_quantities (i j : nat) (T1 T2 : btensor G R) : Prop :=
    length (nth i (legs T1) []) = length (nth j (legs T2) []) /\
    forall s, s < length (nth i (legs T1) []) ->
      qop G (nth s (nth i (qlegs T1) []) (qe G)) (nth s (nth j (qlegs T2) []) (qe G)) = qe G.
  Definition bond_full (i j : nat) (T1 T2 : btensor G R) : Prop := bond_quantities i j T1 T2 /\ nth i (legs T1) [] = nth j (legs T2) [].
  Definition block_chain (r : nat) (P : btensor G R -> btensor G R -> Prop) (l : list (btensor G R)) : Prop :=
    (forall T, In T l -> b_rank T = r) /\ linked P l.
End Block.
