(** Outcomes of modelled C++ calls and small list utilities shared by every file. *)
From Coq Require Export List Arith ZArith Lia Bool.
Export ListNotations.
Set Implicit Arguments.

(** Outcome of a C++ call: a value, a thrown exception, or undefined behaviour
    (dereferencing [end()], out-of-range [operator[]], ...). *)
Inductive exn : Type :=
| InvalidArgument | OutOfRange | LogicError | RuntimeError | BadCast | TorchError | DomainError.

Inductive result (A : Type) : Type :=
| Ok (a : A)
| Throw (e : exn)
| UB.
Arguments Ok {A} a.
Arguments Throw {A} e.
Arguments UB {A}.

Definition rbind {A B} (r : result A) (f : A -> result B) : result B :=
  match r with Ok a => f a | Throw e => Throw e | UB => UB end.
Notation "'do' x <- r ; k" := (rbind r (fun x => k))
  (at level 200, x pattern, r at level 100, k at level 200, right associativity).

Definition rmap {A B} (f : A -> B) (r : result A) : result B := rbind r (fun a => Ok (f a)).

Definition is_ok {A} (r : result A) : bool := match r with Ok _ => true | _ => false end.

Definition sum_list (l : list nat) : nat := fold_right Nat.add 0 l.
Definition prod_list (l : list nat) : nat := fold_right Nat.mul 1 l.

(** In-range multi-indices: same length, each component below the bound. *)
Fixpoint in_range (shape idx : list nat) : bool :=
  match shape, idx with
  | [], [] => true
  | s :: sh, i :: ix => (i <? s) && in_range sh ix
  | _, _ => false
  end.

Definition upd {A} (l : list A) (n : nat) (a : A) : list A := firstn n l ++ a :: skipn (S n) l.
