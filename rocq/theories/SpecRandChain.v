(** What a random chain should be. *)
From Verif Require Import Base Quantity QuantityProofs Ring SpecIndex Dense BTensor SpecBTensor SpecChain SpecEdges SpecRand SpecBcast.
Set Implicit Arguments.

Section S.
  Variable G : abgroup.
  Variable R : ring.
  Notation bt := (btensor G R).
  (** A bond with one value, of neutral quantity. *)
  Definition trivial_bond : list nat * list G := ([1], [qe G]).
  (** The physical dimensions are given by tensors of rank one that are not empty. *)
  Definition phys_ok (P : bt) : Prop := meta_ok P /\ b_rank P = 1 /\ nonempty P.
  (** A chain with the given physical dimensions between trivial bonds; neighbouring bonds carry opposite quantities, and all inner
      bonds have [bond] values, in sections that are not empty. *)
  Definition random_chain (bond : nat) (phys : list bt) (total : G) (out : list bt) : Prop :=
    Forall (@valid G R) out /\ mps_fit (@blegs G R) (@bdual G) out trivial_bond trivial_bond /\
    Forall2 (fun T P => nth 1 (blegs T) ([], []) = nth 0 (blegs P) ([], [])) out phys /\
    qprod G (map (@b_rule G R) out) = qop G total (qprod G (map (@b_rule G R) phys)) /\
    forall i T, nth_error out i = Some T -> S i < length out -> sum_list (nth 2 (legs T) []) = bond /\ Forall (lt 0) (nth 2 (legs T) []).
  (** Blocks of all sites are stored along a configuration of the given total. *)
  Definition threaded (phys : list bt) (total : G) (out : list bt) : Prop :=
    exists o ls, config (map (@b_cv G R) phys) total o /\
      forall i T, nth_error out i = Some T -> stores T [nth i ls 0; nth i o 0; nth (S i) ls 0].
End S.
