(** Chains closed at both ends: each end of one chain is identified with the same end of the other. *)
From Verif Require Import Base Quantity QuantityProofs Ring SpecIndex Dense BTensor SpecBTensor SpecView SpecChain.
Set Implicit Arguments.

Section S.
  Variable R : ring.
  Notation "'sum' x < n , e" := (sumf R (fun x => e) (seq 0 n)) (at level 200, x name, n at level 69, e at level 200).
  Notation t := (dense R).
  (** <b|a> summed over common bond values at the ends, [n] and [n'] of them. *)
  Definition closed_overlap (a b : list t) (n n' : nat) : R := sum p < n, sum p' < n', overlap a b p p p' p'.
  (** <b|h|a>, also summed over the [m] and [m'] bond values at the ends of the operators. *)
  Definition closed_element (a b h : list t) (n m n' m' : nat) : R :=
    sum p < n, sum q < m, sum p' < n', sum q' < m', element a b h p q p p' q' p'.
End S.

(** The last entry of the pattern is fixed although another one is kept. *)
Definition tail_fixed (p : pattern) : Prop := In None p /\ exists p' a, p = p' ++ [Some a].

(** The rule left for the kept dimensions when the others are fixed: together with the quantities of the fixed elements it
    makes up the rule of the tensor. *)
Definition edge_rule {G : abgroup} {R : ring} (p : pattern) (T : btensor G R) (r : G) : Prop :=
  exists bp op, resolves (legs T) p bp op /\ qop G r (qprod G (fixed (qe G) bp (qlegs T))) = b_rule T.
(** No dimension is empty. *)
Definition nonempty {G : abgroup} {R : ring} (T : btensor G R) : Prop := forall l, In l (legs T) -> 0 < sum_list l.

Section B.
  Variable G : abgroup.
  Variable R : ring.
  (** A structure without blocks: dimensions, their quantities and the rule. *)
  Definition shape_is (S : btensor G R) (L : list (list nat)) (Q : list (list G)) (r : G) : Prop :=
    valid S /\ b_blocks S = [] /\ legs S = L /\ qlegs S = Q /\ b_rule S = r.
  (** The tensor, or zeros of the same shape. *)
  Definition d_when (c : bool) (D : dense R) : dense R := if c then D else d_zeros (dsh D).
  (** A bond whose elements all carry [c]: the order in which arguments are evaluated matters unless [c] is its own inverse. *)
  Definition order_ok (last_first : bool) (c : G) : bool := last_first || qeqb G c (qinv G c).
End B.
Arguments order_ok {G} last_first c.
