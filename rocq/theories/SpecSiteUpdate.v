(** Norm and energy of chains, independent of the functions of the code. *)
From Verif Require Import Base Ring SpecIndex Dense SpecChain Num SpecLanczos.
Set Implicit Arguments.

Section S.
  Context {N : numeric}.
  Local Open Scope R_scope.
  Notation t := (dense N).
  Notation "'sum' x < n , e" := (sumf N (fun x => e) (seq 0 n)) (at level 200, x name, n at level 69, e at level 200).

  (** Squared norm of the chain: all amplitudes, between all values of the bonds at its ends. *)
  Definition chain_norm (l : list t) (x y : nat) : N :=
    sum a < x, sum b < y, sumf N (fun c => rconj (amp l c a b) * amp l c a b) (configs l).
  (** Two neighbours as one vector. *)
  Definition pair_amp (a a' : t) (i : list nat) : N := amp [a; a'] [nth 1 i 0%nat; nth 2 i 0%nat] (nth 0 i 0%nat) (nth 3 i 0%nat).
  (** The operator of a chain with weights [L] and [E] at its ends: from configuration [s] with end bonds [x], [x'] to
      configuration [s'] with end bonds [y], [y']. *)
  Definition operator (h : list t) (L E : t) (x : nat) (s : list nat) (x' y : nat) (s' : list nat) (y' : nat) : N :=
    sum o < size 1 L, sum o' < size 1 E, dv L [x; o; y] * op_amp h s' s o o' * dv E [x'; o'; y'].
  Definition hermitian_chain (h : list t) (L E : t) (ps : list nat) : Prop :=
    forall x s x' y s' y', in_range ps s = true -> in_range ps s' = true ->
      (x < size 0 L -> y < size 0 L -> x' < size 0 E -> y' < size 0 E -> rconj (operator h L E x s x' y s' y') = operator h L E y s' y' x s x')%nat.
  (** Matrix of the operator of a chain [hpre ++ \[h; h'\] ++ hpost] between the states that a chain [pre ++ \[_; _\] ++ post] takes for
      the unit vectors in place of its two sites: row [i], column [j]. *)
  Definition local_matrix (pre hpre : list t) (h h' : t) (post hpost : list t) (L E : t) (i j : list nat) : N :=
    sum q < size 0 h, sum q' < size 2 h',
      left_part pre hpre L (nth 0 j 0%nat) q (nth 0 i 0%nat) * op_amp [h; h'] [nth 1 i 0%nat; nth 2 i 0%nat] [nth 1 j 0%nat; nth 2 j 0%nat] q q' *
      right_part post hpost E (nth 3 j 0%nat) q' (nth 3 i 0%nat).
  (** The vector has a residual of norm [eps] at least, or is an eigenvector with a negative eigenvalue. *)
  Definition improvable (sh : list nat) (M : list nat -> list nat -> N) (eps : N) (v : list nat -> N) : Prop :=
    le N (eps * eps) (sprod sh (residual sh M v) (residual sh M v)) \/
    exists lam, n_leb N rz lam = false /\ forall i, in_range sh i = true -> apply sh M v i = lam * v i.
  (** The vector is an eigenvector whose eigenvalue is not negative. *)
  Definition stuck (sh : list nat) (M : list nat -> list nat -> N) (v : list nat -> N) : Prop :=
    exists lam, le N rz lam /\ forall i, in_range sh i = true -> apply sh M v i = lam * v i.
  (** Values in descending order, none negative. *)
  Definition descending (d : t) : Prop :=
    (forall c, c < size 0 d -> le N rz (dv d [c]))%nat /\ forall c c', (c <= c' -> c' < size 0 d -> le N (dv d [c']) (dv d [c]))%nat.
End S.
