(** Contraction of dense tensors, and which contractions make sense; independent of the functions of the code. *)
From Verif Require Import Base Quantity Ring SpecFlatMap Index SpecIndex Dense BTensor SpecBTensor.
Set Implicit Arguments.

(** Dimensions of an [n]-dimensional tensor that are not in [d], in increasing order. *)
Definition free (n : nat) (d : list nat) : list nat := filter (fun i => negb (existsb (Nat.eqb i) d)) (seq 0 n).

(** Coordinate [k] of an element whose contracted dimensions [d] have coordinates [c] and the others [f] coordinates [i]. *)
Definition slot (d c f i : list nat) (k : nat) : nat :=
  if existsb (Nat.eqb k) d then nth (index_of k d) c 0 else nth (index_of k f) i 0.
Definition coords (n : nat) (d c i : list nat) : list nat := map (slot d c (free n d) i) (seq 0 n).

(** Sum over the common coordinates of dimensions [d1] of [A] and [d2] of [B]; the remaining dimensions of [A], then of
    [B], in order. *)
Definition d_tdot {R : ring} (A B : dense R) (d1 d2 : list nat) : dense R :=
  let n1 := length (dsh A) in let n2 := length (dsh B) in
  mkD (gather 0 (free n1 d1) (dsh A) ++ gather 0 (free n2 d2) (dsh B))
      (fun i => sumf R (fun c => rmul (dv A (coords n1 d1 c (firstn (length (free n1 d1)) i)))
                                      (dv B (coords n2 d2 c (skipn (length (free n1 d1)) i)))) (idxs (gather 0 d1 (dsh A)))).

Section Spec.
  Variable G : abgroup.
  Variable R : ring.
  Implicit Types T : btensor G R.

  (** Distinct dimensions, as many on both sides, with sections of equal sizes and inverse quantities. *)
  Definition compatible T1 T2 (d1 d2 : list nat) : Prop :=
    length d1 = length d2 /\ NoDup d1 /\ NoDup d2 /\ (forall k, In k d1 -> k < b_rank T1) /\ (forall k, In k d2 -> k < b_rank T2) /\
    forall j, j < length d1 ->
      nth (nth j d1 0) (legs T1) [] = nth (nth j d2 0) (legs T2) [] /\
      forall s, s < length (nth (nth j d1 0) (qlegs T1) []) ->
        qop G (nth s (nth (nth j d1 0) (qlegs T1) []) (qe G)) (nth s (nth (nth j d2 0) (qlegs T2) []) (qe G)) = qe G.

  (** As [compatible] with the numbers of sections instead of their sizes. *)
  Definition linkable T1 T2 (d1 d2 : list nat) : Prop :=
    length d1 = length d2 /\ NoDup d1 /\ NoDup d2 /\
    forall j, j < length d1 ->
      length (nth (nth j d1 0) (legs T1) []) = length (nth (nth j d2 0) (legs T2) []) /\
      forall s, s < length (nth (nth j d1 0) (qlegs T1) []) ->
        qop G (nth s (nth (nth j d1 0) (qlegs T1) []) (qe G)) (nth s (nth (nth j d2 0) (qlegs T2) []) (qe G)) = qe G.

  (** The structure of a contraction: uncontracted dimensions of both, product of the selection rules. *)
  Definition tdot_meta T1 T2 (d1 d2 : list nat) T : Prop :=
    b_rule T = qop G (b_rule T1) (b_rule T2) /\
    legs T = gather [] (free (b_rank T1) d1) (legs T1) ++ gather [] (free (b_rank T2) d2) (legs T2) /\
    qlegs T = gather [] (free (b_rank T1) d1) (qlegs T1) ++ gather [] (free (b_rank T2) d2) (qlegs T2).
  (** The blocks a contraction stores: those of a pair of stored blocks in the same sections of the contracted dimensions. *)
  Definition tdot_blocks T1 T2 (d1 d2 : list nat) T : Prop := forall k, assoc leqb k (b_blocks T) <> None <->
    exists k1 k2, assoc leqb k1 (b_blocks T1) <> None /\ assoc leqb k2 (b_blocks T2) <> None /\ gather 0 d1 k1 = gather 0 d2 k2 /\
      k = gather 0 (free (b_rank T1) d1) k1 ++ gather 0 (free (b_rank T2) d2) k2.
End Spec.
