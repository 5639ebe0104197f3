(** Energies of two sites between environments, independent of the functions of the code. Vectors are tensors of four
    dimensions (left bond, two physical ones, right bond). *)
From Verif Require Import Base Ring SpecIndex Dense Num.
Set Implicit Arguments.

Section S.
  Context {N : numeric}.
  Local Open Scope R_scope.
  Notation t := (dense N).
  Notation "'sum' x < n , e" := (sumf N (fun x => e) (seq 0 n)) (at level 200, x name, n at level 69, e at level 200).

  (** Environments of bonds [x] and [x'] of the state, [o] and [o'] of the Hamiltonian, physical dimensions [p] and [p']. *)
  Definition fits (L H E : t) (x p p' x' : nat) : Prop :=
    exists o o', dsh L = [x; o; x] /\ dsh H = [o; p; p'; o'; p; p'] /\ dsh E = [x'; o'; x'].
  (** Matrix of the Hamiltonian between two environments: row [i], column [j]. *)
  Definition heff (L H E : t) (i j : list nat) : N :=
    sum q < nth 1 (dsh L) 0, sum q' < nth 1 (dsh E) 0,
      dv L [nth 0 j 0; q; nth 0 i 0]%nat * dv H [q; nth 1 i 0; nth 2 i 0; q'; nth 1 j 0; nth 2 j 0]%nat * dv E [nth 3 j 0; q'; nth 3 i 0]%nat.
  Section V.
    Variables (sh : list nat) (M : list nat -> list nat -> N).
    Definition hermitian_kernel : Prop := forall i j, in_range sh i = true -> in_range sh j = true -> rconj (M i j) = M j i.
    Definition apply (v : list nat -> N) (i : list nat) : N := sumf N (fun j => M i j * v j) (idxs sh).
    Definition sprod (v w : list nat -> N) : N := sumf N (fun i => rconj (v i) * w i) (idxs sh).
    Definition energy (v : list nat -> N) : N := sprod v (apply v).
    (** Combination of two vectors. *)
    Definition comb (x y : N) (v w : list nat -> N) (i : list nat) : N := x * v i + y * w i.
    (** What the Hamiltonian adds orthogonally to [v]; zero for an eigenvector. *)
    Definition residual (v : list nat -> N) (i : list nat) : N := rsub (apply v i) (energy v * v i).
    (** [psi] is normalized with energy [E], a combination of [v] and of what the Hamiltonian makes of it, and no such
        combination has a lower energy. *)
    Definition krylov_ground (v : list nat -> N) (E : N) (psi : list nat -> N) : Prop :=
      sprod psi psi = ro /\ energy psi = E /\
      (exists x y, forall i, in_range sh i = true -> psi i = comb x y v (apply v) i) /\
      forall x y, le N (E * sprod (comb x y v (apply v)) (comb x y v (apply v))) (energy (comb x y v (apply v))).
  End V.
End S.
