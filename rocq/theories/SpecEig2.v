(** Eigenvectors of Hermitian matrices with two rows, independent of the functions of the code. *)
From Verif Require Import Base Ring Num.
Set Implicit Arguments.

Section S.
  Context {N : numeric}.
  Local Open Scope R_scope.
  (** The form <v|M|v> of the matrix with rows (a0, b^H) and (b, a1) at v = (x, y). *)
  Definition form2 (a0 a1 b x y : N) : N := a0 * (rconj x * x) + rconj x * (rconj b * y) + rconj y * (b * x) + a1 * (rconj y * y).
  Definition norm2 (x y : N) : N := rconj x * x + rconj y * y.
  (** (o, n) is a normalized eigenvector with eigenvalue [E], and no vector has a lower form. *)
  Definition ground2 (a0 a1 b E o n : N) : Prop :=
    norm2 o n = ro /\ a0 * o + rconj b * n = E * o /\ b * o + a1 * n = E * n /\
    forall x y, le N (E * norm2 x y) (form2 a0 a1 b x y).
End S.
