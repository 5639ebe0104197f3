(** What the generalised contraction should give: independent of the functions of the code. The contraction itself is
    [torch::tensordot] ([t_tdot], which broadcasts contracted dimensions of size one). *)
From Verif Require Import Base Ring SpecIndex Dense Chain Gdot.
Set Implicit Arguments.

Section Spec.
  Context {R : ring}.
  (** [D = c * C + p * P], elementwise *)
  Definition combination (c p : R) (C P D : dense R) : Prop :=
    dsh D = dsh C /\ forall i, in_range (dsh C) i = true -> dv D i = radd (rmul c (dv C i)) (rmul p (dv P i)).

  (** No two elements in the same place. *)
  Definition separate (v : strided) : Prop :=
    forall i j, in_range (s_sh v) i = true -> in_range (s_sh v) j = true -> addr v i = addr v j -> i = j.
  (** There are strides for which the elements of [v] in row-major order form a matrix. *)
  Definition matrix_like (v : strided) (n1 n2 : nat) : Prop :=
    exists r c, forall i x y, in_range (s_sh v) i = true -> x < n1 -> y < n2 -> rowmajor (s_sh v) i = x * n2 + y ->
      addr v i = s_off v + x * r + y * c.
  (** Elements next to each other in row-major order. *)
  Definition contiguous (v : strided) : Prop :=
    forall i, in_range (s_sh v) i = true -> addr v i = s_off v + rowmajor (s_sh v) i.
  (** Places of the storage outside of the tensor are as before. *)
  Definition untouched (m m' : nat -> R) (v : strided) : Prop :=
    forall p, (forall i, in_range (s_sh v) i = true -> addr v i <> p) -> m' p = m p.
  (** The storage holds the combination in place of [out]. *)
  Definition holds (m m' : nat -> R) (out : strided) (c p : R) (C P : dense R) : Prop :=
    combination c p C P (load m' out) /\ untouched m m' out.
End Spec.
