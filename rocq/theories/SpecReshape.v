(** Grouping of consecutive dimensions, and tensors with the same entries in row-major order; independent of the functions
    of the code. *)
From Verif Require Import Base Quantity QuantityProofs Ring Index SpecIndex Dense BTensor SpecBTensor.
Set Implicit Arguments.

(** A grouping is given by the positive lengths of the groups. The boundaries passed to [reshape] are the positions where
    all groups but the first start. *)
Definition grouping (gl : list nat) (rank : nat) : Prop := (forall n, In n gl -> 0 < n) /\ sum_list gl = rank.
Fixpoint starts (from : nat) (gl : list nat) : list nat :=
  match gl with [] => [] | n :: r => from :: starts (from + n) r end.
Definition boundaries (gl : list nat) : list nat := tl (starts 0 gl).

(** Sections of the merged dimension: one per combination of sections, first dimension slowest; its size is the product of
    the sizes and its quantity the product of the quantities. *)
Definition merged_leg (L : list (list nat)) : list nat := map (fun b => prod_list (pick 0 L b)) (idxs (map (@length nat) L)).
Definition merged_qleg (G : abgroup) (Q : list (list G)) : list G :=
  map (fun b => qprod G (pick (qe G) Q b)) (idxs (map (@length G) Q)).
(** Row-major position inside every group. *)
Definition grouped (gl : list nat) (shape idx : list nat) : list nat := map2 rowmajor (unpack gl shape) (unpack gl idx).

Section Spec.
  Variable G : abgroup.
  Variable R : ring.
  Implicit Types T : btensor G R.

  (** Block [b] is present. *)
  Definition stored T (b : list nat) : Prop := exists t, In (b, t) (b_blocks T).

  (** [S] is [T] with dimensions grouped according to [gl]. *)
  Definition regrouped (gl : list nat) T (S : btensor G R) : Prop :=
    b_rule S = b_rule T /\ b_rank S = length gl /\
    legs S = map merged_leg (unpack gl (legs T)) /\ qlegs S = map (@merged_qleg G) (unpack gl (qlegs T)) /\
    (forall b, in_range (b_sbd T) b = true -> (stored S (grouped gl (b_sbd T) b) <-> stored T b)) /\
    forall b o, in_range (b_sbd T) b = true -> in_range (pick 0 (legs T) b) o = true ->
      bentry S (grouped gl (b_sbd T) b) (grouped gl (pick 0 (legs T) b) o) = bentry T b o.

  (** [a] and [b] name blocks (or elements) with the same row-major rank. *)
  Definition same_rank (sh1 a sh2 b : list nat) : Prop :=
    in_range sh1 a = true /\ in_range sh2 b = true /\ rowmajor sh1 a = rowmajor sh2 b.

  (** Blocks of equal rank have as many elements and the same total quantity. *)
  Definition same_volumes T (S : btensor G R) : Prop :=
    prod_list (b_sbd T) = prod_list (b_sbd S) /\
    forall a b, same_rank (b_sbd T) a (b_sbd S) b -> prod_list (pick 0 (legs T) a) = prod_list (pick 0 (legs S) b).
  Definition same_fluxes T (S : btensor G R) : Prop :=
    forall a b, same_rank (b_sbd T) a (b_sbd S) b ->
      qprod G (pick (qe G) (qlegs T) a) = qprod G (pick (qe G) (qlegs S) b).

  (** The same blocks are stored and the entries of [T] and [S] are the same when blocks, and elements of blocks, are listed in
      row-major order. *)
  Definition same_entries T (S : btensor G R) : Prop :=
    forall a b, same_rank (b_sbd T) a (b_sbd S) b -> (stored S b <-> stored T a) /\
    forall o p, same_rank (pick 0 (legs T) a) o (pick 0 (legs S) b) p -> bentry S b p = bentry T a o.
End Spec.
