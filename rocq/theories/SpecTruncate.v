(** Discarded weight of a truncation, independent of the loops. *)
From Verif Require Import Base Truncate.
Set Implicit Arguments.

Section S.
  Context {W : weights}.
  Context {X : Type}.
  Variable wt : X -> W.
  Fixpoint total (l : list X) : W := match l with [] => wz | x :: l => wadd (wt x) (total l) end.
  (** Weight lost by keeping the first [k] values of the row. *)
  Definition lost_after (k : nat) (row : list X) : W := total (skipn k row).
  (** Weight lost by dropping the first [k] values of the row. *)
  Definition lost_before (k : nat) (row : list X) : W := total (firstn k row).
  (** Some row of the batch loses more than the threshold. *)
  Definition exceeds (lost : list X -> W) (d : list (list X)) (thr : W) : Prop := exists row, In row d /\ wgtb (lost row) thr = true.
  Definition rect (L : nat) (d : list (list X)) : Prop := forall row, In row d -> length row = L.
End S.
