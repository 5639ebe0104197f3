(** What it means for the centre of a chain to be one of its sites, and which operations on containers may break it (C78). *)
From Verif Require Import Base MpsBox.
Set Implicit Arguments.
Local Open Scope Z_scope.

Section Spec.
  Variable T : Type.
  (** A position of a chain of [n] sites; the empty chain has 0. *)
  Definition position (n : nat) (k : Z) : Prop := 0 <= k < Z.of_nat n \/ k = 0.
  (** The centre has a value, and it is a site. *)
  Definition centred_ok (c : chain T) : Prop := exists k, centre c = Some k /\ position (length (sites c)) k.
  (** The centre of variable [i], if it exists, is a position of a chain of [f] (its length) sites. *)
  Definition keeps (st : list (chain T)) (i : nat) (f : nat -> nat) : Prop :=
    forall c k, nth_error st i = Some c -> centre c = Some k -> position (f (length (sites c))) k.
  (** Operations that leave every centre on its chain: everything but
      - [MPS(size, oc)] with a centre off the chain, [bMPS(0, oc)] with a centre other than 0;
      - [bMPS(begin, end)];
      - moving from a chain with a centre other than 0, unless to itself;
      - clear, erase, pop_back and resize, when the centre is not a site any more. *)
  Definition harmless (block : bool) (st : list (chain T)) (o : op T) : Prop :=
    match o with
    | New (CSizeOc _ n oc) => if block then n <> O \/ oc mod 2 ^ 64 = 0 else position n (oc mod 2 ^ 64)
    | New (CRange _) => block = false
    | Move _ i => keeps st i (fun _ => O)
    | MoveAssign _ i j => i = j \/ keeps st j (fun _ => O)
    | Clear _ i => keeps st i (fun _ => O)
    | Erase _ i a b => keeps st i (fun n => n - (b - a))%nat
    | Pop _ i => keeps st i (fun n => n - 1)%nat
    | Resize i n _ => keeps st i (fun _ => n)
    | _ => True
    end.
End Spec.
