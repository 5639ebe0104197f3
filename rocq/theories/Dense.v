(** Dense tensors ([torch::Tensor]) by their documented meaning: a shape and a function from multi-indices to scalars.
    Two dense tensors are the same when the shapes agree and the values agree on the in-range indices ([deq]).
    dtype, device, strides and storage sharing are not modelled. *)
From Verif Require Import Base Ring SpecIndex.
Set Implicit Arguments.

Record dense (R : ring) : Type := mkD { dsh : list nat; dv : list nat -> R }.
Arguments mkD {R} _ _.
Arguments dsh {R} _. Arguments dv {R} _ _.

Definition deq {R : ring} (a b : dense R) : Prop :=
  dsh a = dsh b /\ forall i, in_range (dsh a) i = true -> dv a i = dv b i.

Fixpoint map2 {A B C} (f : A -> B -> C) (l : list A) (m : list B) : list C :=
  match l, m with a :: l', b :: m' => f a b :: map2 f l' m' | _, _ => [] end.

(** Selecting list entries by position: [permute] of a size or index list. *)
Definition gather {A} (dflt : A) (p : list nat) (l : list A) : list A := map (fun k => nth k l dflt) p.

(** Position of [k] in [p]. *)
Fixpoint index_of (k : nat) (p : list nat) : nat :=
  match p with [] => 0 | x :: r => if x =? k then 0 else S (index_of k r) end.
(** The inverse permutation. *)
Definition inv_perm (p : list nat) : list nat := map (fun k => index_of k p) (seq 0 (length p)).

Section Dense.
  Context {R : ring}.
  Implicit Types d : dense R.

  (** torch::full / zeros / ones *)
  Definition d_full (sh : list nat) (c : R) : dense R := mkD sh (fun _ => c).
  Definition d_zeros (sh : list nat) : dense R := d_full sh rz.
  (** torch::eye(n, m) *)
  Definition d_eye (n m : nat) : dense R :=
    mkD [n; m] (fun i => if nth 0 i 0 =? nth 1 i 0 then ro else rz).
  (** element-wise operations *)
  Definition d_map (f : R -> R) d : dense R := mkD (dsh d) (fun i => f (dv d i)).
  Definition d_zip (f : R -> R -> R) (a b : dense R) : dense R := mkD (dsh a) (fun i => f (dv a i) (dv b i)).
  (** tensor.permute(p): dimension [k] of the result is dimension [p[k]] of the input. *)
  Definition d_permute (p : list nat) d : dense R :=
    mkD (gather 0 p (dsh d)) (fun i => dv d (gather 0 (inv_perm p) i)).
  (** tensor.reshape(sh): same entries in row-major order; [decode] is the inverse of [rowmajor]. *)
  Fixpoint decode (sh : list nat) (n : nat) : list nat :=
    match sh with [] => [] | _ :: r => n / prod_list r :: decode r (n mod prod_list r) end.
  Definition d_reshape (sh : list nat) d : dense R :=
    mkD sh (fun i => dv d (decode (dsh d) (rowmajor sh i))).
  (** tensor.index({Slice(o0, o0+l0), ...}) with all slices inside the tensor (torch clamps otherwise; not modelled) *)
  Definition d_slice (org len : list nat) d : dense R := mkD len (fun i => dv d (map2 Nat.add org i)).
  (** out.index_put_({Slice(o0, o0+l0), ...}, src), src of shape (l0, ...). *)
  Fixpoint inside (org len i : list nat) : bool :=
    match org, len, i with
    | [], [], [] => true
    | o :: org', l :: len', x :: i' => (o <=? x) && (x <? o + l) && inside org' len' i'
    | _, _, _ => false
    end.
  Definition d_put (org : list nat) (src : dense R) d : dense R :=
    mkD (dsh d) (fun i => if inside org (dsh src) i then dv src (map2 Nat.sub i org) else dv d i).
  (** tensor.sum(): a rank 0 tensor *)
  Definition d_sum d : R := sumf R (dv d) (idxs (dsh d)).
  (** the value of a rank 0 tensor *)
  Definition d_scalar (x : R) : dense R := mkD [] (fun _ => x).
End Dense.
