(** Eigenvalues of dense tensors of any rank, independent of the functions of the code. *)
From Verif Require Import Base Ring SpecIndex Dense BTensor SpecChain SpecSvd SpecEigh Num Truncate SpecTruncate.
Set Implicit Arguments.

Section M.
  Context {R : ring}.
  (** [A] holds the lower half of [H], both with the dimensions [l] twice: the entries whose row does not come before their
      column, in the order of the flattened indices. *)
  Definition lower_half (l : list nat) (A H : dense R) : Prop :=
    forall i j, in_range l i = true -> in_range l j = true -> rowmajor l j <= rowmajor l i -> dv A (i ++ j) = dv H (i ++ j).
  (** What [torch::linalg::eigh(M, "L")] promises for the matrix [M]: it decomposes the Hermitian matrix whose lower half is that
      of [M]. *)
  Definition eigh_lower (deigh : dense R -> dense R * dense R) (M : dense R) : Prop :=
    forall H n, dsh M = [n; n] -> dsh H = [n; n] -> hermitian_matrix H -> lower_half [n] M H -> eigenpairs H (deigh M).
  (** Column [c] of [U] is an eigenvector of [H] with the value [d c]. *)
  Definition eigenvector (l : list nat) (H U d : dense R) (c : nat) : Prop :=
    forall i, in_range l i = true -> sumf R (fun j => rmul (dv H (i ++ j)) (dv U (j ++ [c]))) (idxs l) = rmul (dv d [c]) (dv U (i ++ [c])).
End M.

Section T.
  Context {N : numeric} {W : weights}.
  Variable wt : N -> W.
  (** Weight of the entries [k] to [n - 1] of row [i]. *)
  Definition row_weight (n k : nat) (U : dense N) (i : list nat) : W := total wt (map (fun c => dv U (i ++ [c])) (seq k (n - k))).
  Definition some_row_loses (l : list nat) (n k : nat) (U : dense N) (thr : W) : Prop :=
    exists i, in_range l i = true /\ wgtb (row_weight n k U i) thr = true.
  Definition ascending_values (d : dense N) (n : nat) : Prop := forall c c', c <= c' -> c' < n -> le N (dv d [c]) (dv d [c']).
End T.
