(** What comparisons with scalars mean, independently of the model of [ScalarOps]. *)
From Verif Require Import Base Ring ScalarOps.

(** The relation a comparison stands for. *)
Definition relates {R : ring} (leb : R -> R -> bool) (r : cmp) (x y : R) : Prop :=
  match r with
  | CLe => leb x y = true | CGe => leb y x = true
  | CLt => leb x y = true /\ x <> y | CGt => leb y x = true /\ x <> y
  | CEq => x = y | CNe => x <> y
  end.
(** One where the relation holds, zero elsewhere. *)
Definition truth_of {R : ring} (P : Prop) (v : R) : Prop := (P /\ v = ro) \/ (~ P /\ v = rz).
