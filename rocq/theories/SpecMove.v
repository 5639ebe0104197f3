(** Gauges of chains of tensors and equality of the states they represent, independent of the functions of the code. *)
From Verif Require Import Base Ring SpecIndex Dense SpecChain.
Set Implicit Arguments.

Section S.
  Context {R : ring}.
  Notation "'sum' x < n , e" := (sumf R (fun x => e) (seq 0 n)) (at level 200, x name, n at level 69, e at level 200).
  Notation t := (dense R).
  Notation size := (@size R).

  (** A site is an isometry from its right bond to its left bond and physical index, or from its left bond to the others. *)
  Definition left_isometry (A : t) : Prop := forall c c', c < size 2 A -> c' < size 2 A ->
    (sum x < size 0 A, sum s < size 1 A, rmul (rconj (dv A [x; s; c])) (dv A [x; s; c'])) = if c =? c' then ro else rz.
  Definition right_isometry (A : t) : Prop := forall c c', c < size 0 A -> c' < size 0 A ->
    (sum s < size 1 A, sum y < size 2 A, rmul (dv A [c; s; y]) (rconj (dv A [c'; s; y]))) = if c =? c' then ro else rz.
  (** Between sites [lo] and [hi], excluded, all sites but [oc] are isometries pointing to [oc]. *)
  Definition centred (lo hi oc : nat) (l : list t) : Prop :=
    (forall j A, lo <= j < oc -> nth_error l j = Some A -> left_isometry A) /\
    (forall j A, oc < j < hi -> nth_error l j = Some A -> right_isometry A).

  (** The same amplitudes for all configurations, between all values of the bonds at the ends. *)
  Definition same_state (l l' : list t) (x y : nat) : Prop :=
    map (size 1) l' = map (size 1) l /\
    forall c a b, in_range (map (size 1) l) c = true -> a < x -> b < y -> amp l' c a b = amp l c a b.
  Definition zero_state (l : list t) (x y : nat) : Prop :=
    forall c a b, in_range (map (size 1) l) c = true -> a < x -> b < y -> amp l c a b = rz.
  (** The tensor as a matrix, its dimensions cut before position [s]. *)
  Definition cut_matrix (s : nat) (A M : t) : Prop :=
    let l := firstn s (dsh A) in let r := skipn s (dsh A) in
    dsh M = [prod_list l; prod_list r] /\
    forall i j, in_range l i = true -> in_range r j = true -> dv M [rowmajor l i; rowmajor r j] = dv A (i ++ j).
End S.
