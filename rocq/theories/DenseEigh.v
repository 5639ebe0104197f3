(** Model of the eigenvalue decomposition of dense tensors, sources/LinearAlgebra.cpp:135-176. Model only. The decomposition of
    matrices ([torch::linalg::eigh(M, "L")]) is the parameter [deigh]; [wt] and [thr] as in Truncate.v. *)
From Verif Require Import Base Ring Index SpecIndex Dense BTensor Tensordot Num Truncate BSvd BTrunc SiteUpdate.
Set Implicit Arguments.

Section DEigh.
  Context {N : numeric} {W : weights}.
  Notation t := (dense N).
  Variable deigh : t -> t * t.
  Variable wt : N -> W.
  Variable thr : W.

  (** sources/LinearAlgebra.cpp:135-148 [eigh(A, split)]: eigenvalues, then eigenvectors. [ArrayRef::slice] refuses a position past
      the end. *)
  Definition d_eigh (A : t) (split : nat) : result (t * t) :=
    if length (dsh A) <? split then Throw TorchError
    else
      let l := firstn split (dsh A) in
      let r := skipn split (dsh A) in
      if negb (prod_list l =? prod_list r) then Throw InvalidArgument
      else
        do rA <- t_reshape [prod_list l; prod_list r] A ;
        let '(d, u) := deigh rA in
        do u <- t_reshape (l ++ dsh d) u ;
        Ok (d, u).

  (** The rows of a tensor along its last dimension: [Ellipsis] ranges over all the other ones. *)
  Definition rows (x : t) : list (list N) := map (fun i => map (fun c => dv x (i ++ [c])) (seq 0 (last (dsh x) 0))) (idxs (removelast (dsh x))).
  (** sources/LinearAlgebra.cpp:98-103 [truncate(e, u, ...)]: the number kept is decided by [e], and the second tensor comes first. *)
  Definition d_truncate2 (e u : t) (mn mx : Z) : option (result (t * t)) :=
    obind (compute_last_index wt (last (dsh e) 0) (rows e) thr mn mx) (fun i => Some (Ok (d_slice (i + 1) u, d_slice (i + 1) e))).
  (** sources/LinearAlgebra.cpp:87-91 [truncate(tuple(d, u), ...)] calls [truncate(u, d, ...)]. *)
  Definition d_truncate_pair (x : t * t) (mn mx : Z) : option (result (t * t)) := let '(d, u) := x in d_truncate2 u d mn mx.
  (** sources/LinearAlgebra.cpp:157-160 the truncated [eigh] and :150-155 the one without limits *)
  Definition d_eigh_trunc (A : t) (split : nat) (mn mx : Z) : option (result (t * t)) :=
    obind (Some (d_eigh A split)) (fun x => d_truncate_pair x mn mx).
  Definition d_eigh_tol (A : t) (split : nat) : option (result (t * t)) := d_eigh_trunc A split 1 (2 ^ 64 - 1).

  (** sources/LinearAlgebra.cpp:162-165 [eig(A, split)] and :166-176 the truncated ones *)
  Definition d_eig (A : t) (split : nat) : result (t * t) := Throw LogicError.
  Definition d_eig_trunc (A : t) (split : nat) (mn mx : Z) : option (result (t * t)) :=
    obind (Some (d_eig A split)) (fun x => d_truncate_pair x mn mx).
End DEigh.
