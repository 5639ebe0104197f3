(** Orthonormal columns among those that are used; independent of the functions of the code. *)
From Verif Require Import Base Ring SpecIndex Dense SpecChain.
Set Implicit Arguments.

Section S.
  Context {R : ring}.
  (** The columns [c] < [k] with property [P] are orthonormal. *)
  Definition orthonormal_on (P : nat -> Prop) (s : list nat) (k : nat) (U : dense R) : Prop :=
    forall c c', c < k -> c' < k -> P c -> P c' -> sumf R (fun i => rmul (rconj (dv U (i ++ [c]))) (dv U (i ++ [c']))) (idxs s) = if c =? c' then ro else rz.
  (** Some element of site [a'] on its left bond [c], of site [a] on its right bond [c], is not zero. *)
  Definition used_right (a' : dense R) (c : nat) : Prop := exists i j, i < size 1 a' /\ j < size 2 a' /\ dv a' [c; i; j] <> rz.
  Definition used_left (a : dense R) (c : nat) : Prop := exists i j, i < size 0 a /\ j < size 1 a /\ dv a [i; j; c] <> rz.
  (** Neighbours [a], [a']: [a] is an isometry from those values of its right bond that [a'] uses; [a'] from those values of its
      left bond that [a] uses. *)
  Definition left_isometry_used (a a' : dense R) : Prop := forall c c', c < size 2 a -> c' < size 2 a -> used_right a' c -> used_right a' c' ->
    sumf R (fun i => sumf R (fun j => rmul (rconj (dv a [i; j; c])) (dv a [i; j; c'])) (seq 0 (size 1 a))) (seq 0 (size 0 a)) = if c =? c' then ro else rz.
  Definition right_isometry_used (a a' : dense R) : Prop := forall c c', c < size 0 a' -> c' < size 0 a' -> used_left a c -> used_left a c' ->
    sumf R (fun i => sumf R (fun j => rmul (dv a' [c; i; j]) (rconj (dv a' [c'; i; j]))) (seq 0 (size 2 a'))) (seq 0 (size 1 a')) = if c =? c' then ro else rz.
End S.
