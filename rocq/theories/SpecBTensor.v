(** What it means for a block tensor to be well formed, and which dense tensor it denotes; independent of the
    functions of the code. *)
From Verif Require Import Base Quantity QuantityProofs Ring SpecFlatMap Index SpecIndex Dense BTensor.
Set Implicit Arguments.

Section Spec.
  Variable G : abgroup.
  Variable R : ring.
  Implicit Types T : btensor G R.

  (** Section sizes and conserved quantities of every dimension. *)
  Definition legs T : list (list nat) := unpack (b_sbd T) (b_ss T).
  Definition qlegs T : list (list G) := unpack (b_sbd T) (b_cv T).

  (** Block index in range and total quantity equal to the selection rule. *)
  Definition allowed T (idx : list nat) : Prop :=
    in_range (b_sbd T) idx = true /\ qprod G (pick (qe G) (qlegs T) idx) = b_rule T.

  (** Metadata lengths agree. *)
  Definition meta_ok T : Prop :=
    length (b_sbd T) = b_rank T /\ sum_list (b_sbd T) = length (b_ss T) /\ sum_list (b_sbd T) = length (b_cv T).

  (** Every stored block is allowed and has the shape given by the sections. *)
  Definition blocks_ok T : Prop :=
    forall idx t, In (idx, t) (b_blocks T) -> allowed T idx /\ dsh t = pick 0 (legs T) idx.

  Definition valid T : Prop := meta_ok T /\ blocks_ok T /\ sorted lexb (b_blocks T).

  (** Same structure: everything but the blocks. *)
  Definition same_meta T T' : Prop :=
    b_rule T = b_rule T' /\ b_rank T = b_rank T' /\ b_sbd T = b_sbd T' /\ b_ss T = b_ss T' /\ b_cv T = b_cv T'.

  (** Value of position [o] of block [b]: zero where no block is stored. *)
  Definition bentry T (b o : list nat) : R :=
    match assoc leqb b (b_blocks T) with Some t => dv t o | None => rz end.

  (** [D] is the dense form of [T]: summed sizes, and the block entries at their places. *)
  Definition dense_form T (D : dense R) : Prop :=
    dsh D = map sum_list (legs T) /\
    forall b o, in_range (b_sbd T) b = true -> in_range (pick 0 (legs T) b) o = true ->
      dv D (place (legs T) b o) = bentry T b o.

  (** [l] lists the allowed block indices, each once. *)
  Definition allowed_list T (l : list (list nat)) : Prop := NoDup l /\ forall k, In k l <-> allowed T k.

  (** A significance test with cutoff zero discards only blocks of zeros. *)
  Definition cutoff0 (signif : dense R -> bool) : Prop :=
    forall d, signif d = false -> forall i, in_range (dsh d) i = true -> dv d i = rz.
End Spec.
