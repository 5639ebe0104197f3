(** Independent specifications used by the property theorems on quantities. *)
From Verif Require Import Base.
Local Open Scope Z_scope.

(** Specification: the abelian group laws for a product, unit and inverse on the legal values,
    stated with no reference to the model. *)
Definition abelian_group_on {A} (legal : A -> Prop) (op : A -> A -> A) (inv : A -> A) (e : A) : Prop :=
  legal e /\
  (forall a b, legal a -> legal b -> legal (op a b)) /\
  (forall a, legal a -> legal (inv a)) /\
  (forall a b c, legal a -> legal b -> legal c -> op a (op b c) = op (op a b) c) /\
  (forall a b, legal a -> legal b -> op a b = op b a) /\
  (forall a, legal a -> op e a = a) /\
  (forall a, legal a -> op a (inv a) = e).

Fixpoint running_sums_within (lo hi acc : Z) (l : list Z) : Prop :=
  match l with
  | [] => True
  | x :: r => lo <= acc + x <= hi /\ running_sums_within lo hi (acc + x) r
  end.
Definition strict_total_order {A} (lt : A -> A -> bool) : Prop :=
  (forall a, lt a a = false) /\
  (forall a b c, lt a b = true -> lt b c = true -> lt a c = true) /\
  (forall a b, lt a b = true \/ a = b \/ lt b a = true).
