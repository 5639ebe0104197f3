(** Operators on a chain of [n] sites with [d] states each, and the operator denoted by a list of rank four tensors;
    independent of the functions of the code. *)
From Verif Require Import Base Ring SpecIndex Dense.
Set Implicit Arguments.

Section Spec.
  Variable R : ring.
  Local Open Scope R_scope.
  (** One-site operators and chain operators by their matrix elements (row, column). *)
  Definition mat := nat -> nat -> R.
  Definition chop := list nat -> list nat -> R.

  Definition delta (a b : nat) : R := if (a =? b)%nat then ro else rz.
  Definition of_dense (t : dense R) : mat := fun p q => dv t [p; q].
  Definition mscale (x : R) (A : mat) : mat := fun p q => x * A p q.
  Definition madd (A B : mat) : mat := fun p q => A p q + B p q.
  Definition mmul (d : nat) (A B : mat) : mat := fun p q => sumf R (fun r => A p r * B r q) (seq 0 d).
  Definition madj (A : mat) : mat := fun p q => rconj (A q p).

  (** Tensor product of one operator per site. *)
  Fixpoint tensor (ms : list mat) : chop := fun ps qs =>
    match ms, ps, qs with
    | [], [], [] => ro
    | m :: ms', p :: ps', q :: qs' => m p q * tensor ms' ps' qs'
    | _, _, _ => rz
    end.
  (** [A] on site [i]; [A] on site [i] and [B] on site [i+1]; [A] on site [i] after a string of [F]. *)
  Definition on_site (n i : nat) (A : mat) : chop :=
    tensor (map (fun j => if (j =? i)%nat then A else delta) (seq 0 n)).
  Definition on_pair (n i : nat) (A B : mat) : chop :=
    tensor (map (fun j => if (j =? i)%nat then A else if (j =? S i)%nat then B else delta) (seq 0 n)).
  Definition with_string (n i : nat) (F A : mat) : chop :=
    tensor (map (fun j => if (j <? i)%nat then F else if (j =? i)%nat then A else delta) (seq 0 n)).

  Definition cone : chop := fun ps qs => tensor (map (fun _ => delta) ps) ps qs.
  Definition cadd (X Y : chop) : chop := fun ps qs => X ps qs + Y ps qs.
  Definition cscale (x : R) (X : chop) : chop := fun ps qs => x * X ps qs.
  Definition csum {A} (f : A -> chop) (l : list A) : chop := fun ps qs => sumf R (fun a => f a ps qs) l.
  Definition cmul (d n : nat) (X Y : chop) : chop := fun ps qs => sumf R (fun rs => X ps rs * Y rs qs) (idxs (repeat d n)).
  Definition cadj (X : chop) : chop := fun ps qs => rconj (X qs ps).
  (** Equal matrix elements. *)
  Definition ceq (d n : nat) (X Y : chop) : Prop :=
    forall ps qs, in_range (repeat d n) ps = true -> in_range (repeat d n) qs = true -> X ps qs = Y ps qs.

  (** Sum over the bonds of the product of the tensors, from bond value [a] on the left to [b] on the right. *)
  Fixpoint amp (Ws : list (dense R)) (a : nat) (ps qs : list nat) (b : nat) : R :=
    match Ws, ps, qs with
    | [], [], [] => delta a b
    | W :: Ws', p :: ps', q :: qs' => sumf R (fun c => dv W [a; p; c; q] * amp Ws' c ps' qs' b) (seq 0 (nth 2 (dsh W) 0))%nat
    | _, _, _ => rz
    end.
  Definition mpo_op (Ws : list (dense R)) : chop := fun ps qs => amp Ws 0 ps qs 0.
  (** Rank four tensors with [d] states per site, equal neighbouring bonds, [l] and [r] at the ends. *)
  Fixpoint mpo_shape (d : nat) (l : nat) (Ws : list (dense R)) (r : nat) : Prop :=
    match Ws with
    | [] => l = r
    | W :: Ws' => exists m, dsh W = [l; d; m; d] /\ mpo_shape d m Ws' r
    end.
End Spec.

(** The Pauli matrices x, z and i times y, and the anticommutator. *)
Section Spec2.
  Variable R : ring.
  Local Open Scope R_scope.
  Definition pauli_x : mat R := fun p q => match p, q with 0%nat, 1%nat | 1%nat, 0%nat => ro | _, _ => rz end.
  Definition pauli_iy : mat R := fun p q => match p, q with 0%nat, 1%nat => ro | 1%nat, 0%nat => - ro | _, _ => rz end.
  Definition pauli_z : mat R := fun p q => match p, q with 0%nat, 0%nat => ro | 1%nat, 1%nat => - ro | _, _ => rz end.
  Definition anti (d n : nat) (X Y : chop R) : chop R := cadd (cmul d n X Y) (cmul d n Y X).
  Definition czero : chop R := fun _ _ => rz.
  (** sigma_i . sigma_(i+1) *)
  Definition sigma_sigma (n i : nat) : chop R :=
    cadd (cadd (on_pair n i pauli_x pauli_x) (cscale (- ro) (on_pair n i pauli_iy pauli_iy))) (on_pair n i pauli_z pauli_z).
End Spec2.
