(** Model of the Hamiltonians with conserved quantities as the library returns them, compressed: sources/models.cpp:92-100 and
    164-172. Model only. *)
From Verif Require Import Base Quantity Ring Dense BTensor Models ModelsBlock Truncate BTrunc Coalesce.
Set Implicit Arguments.

Section M.
  Context {G : abgroup} {R : ring} {W : weights}.
  Variable signif : dense R -> bool.
  Variable near : R -> R -> bool.
  (** Arguments of [coalesce], see Coalesce.v; [thr] for its default cutoff 0 (include/MPT.h:699). *)
  Variables (imax : nat) (gtb : R -> R -> bool) (lower : R -> R) (wt : R -> W) (dsvd : dense R -> dense R * dense R * dense R) (thr : W).
  (** sources/models.cpp:92-100 *)
  Definition conserving_Heisenberg (quarter : R -> R) (J : R) (n : nat) (P : btensor G R) : option (result (list (btensor G R))) :=
    obind (Some (b_Heisenberg signif near quarter J n P)) (fun l => coalesce imax gtb lower wt dsvd l thr).
  (** sources/models.cpp:164-172 *)
  Definition conserving_Hubbard (U mu : R) (n : nat) (P : btensor G R) : option (result (list (btensor G R))) :=
    obind (Some (b_Hubbard signif near U mu n P)) (fun l => coalesce imax gtb lower wt dsvd l thr).
End M.
