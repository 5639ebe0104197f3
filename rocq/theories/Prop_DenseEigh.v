(** Singular and eigenvalue decompositions of dense tensors of any rank (C90). *)
From Verif Require Import Base Ring SpecIndex Dense BTensor SpecChain SpecMove SpecSvd SpecEigh Truncate MoveOc Num SiteUpdate DenseEigh SpecDenseEigh DenseEighThms DenseEighEx.

(** C90. Full claim: [svd(A, split)] and [eigh(A, split)] decompose every tensor cut at any position, the truncated versions keep the values that
    matter most and discard no more than the tolerance allows. [torch::svd] and [torch::linalg::eigh] are the arguments [dsvd] and [deigh], assumed right
    for the matrix made of [A] only. *)
Theorem C90_svd : forall (N : numeric) (dsvd : dense N -> dense N * dense N * dense N) (A : dense N) (l1 l2 : list nat), dsh A = l1 ++ l2 ->
  (forall M, cut_matrix (length l1) A M -> thin M (dsvd M) /\ real_entries (snd (fst (dsvd M)))) ->
  exists M U d V, cut_matrix (length l1) A M /\ d_svd dsvd A (length l1) = Ok (U, d, V) /\ d = snd (fst (dsvd M)) /\
    tensor_factors l1 l2 (Nat.min (prod_list l1) (prod_list l2)) A U d V /\ real_entries d /\
    (isometries M (dsvd M) -> tensor_orthonormal l1 (Nat.min (prod_list l1) (prod_list l2)) U /\ tensor_orthonormal l2 (Nat.min (prod_list l1) (prod_list l2)) V).
Proof. exact svd_any. Qed.
Print Assumptions C90_svd.

(** The truncated version: at least [mn] values when there are so many, at most [mx]; more are dropped exactly as long as what is lost stays
    within the threshold. *)
Theorem C90_svd_trunc : forall (N : numeric) (W : weights) (wt : N -> W) (thr : W) (dsvd : dense N -> dense N * dense N * dense N) (A : dense N) (l1 l2 : list nat) (mn mx : Z),
  dsh A = l1 ++ l2 -> (forall M, cut_matrix (length l1) A M -> thin M (dsvd M) /\ real_entries (snd (fst (dsvd M))) /\ isometries M (dsvd M)) ->
  1 <= Nat.min (prod_list l1) (prod_list l2) -> (Z.of_nat (Nat.min (prod_list l1) (prod_list l2)) <= 2 ^ 63)%Z -> (1 <= mn <= mx)%Z ->
  exists M U d V k, cut_matrix (length l1) A M /\ d = snd (fst (dsvd M)) /\
    d_svd_trunc dsvd wt thr mn mx A (length l1) = Some (Ok (mkD (l1 ++ [k]) (dv U), mkD [k] (dv d), mkD (l2 ++ [k]) (dv V))) /\
    tensor_factors l1 l2 (Nat.min (prod_list l1) (prod_list l2)) A U d V /\
    tensor_orthonormal l1 k (mkD (l1 ++ [k]) (dv U)) /\ tensor_orthonormal l2 k (mkD (l2 ++ [k]) (dv V)) /\
    1 <= k <= Nat.min (prod_list l1) (prod_list l2) /\ (Z.min mn (Z.of_nat (Nat.min (prod_list l1) (prod_list l2))) <= Z.of_nat k <= mx)%Z /\
    (k < Nat.min (prod_list l1) (prod_list l2) -> wgtb (row_weight wt (Nat.min (prod_list l1) (prod_list l2)) k d []) thr = true -> Z.of_nat k = mx) /\
    (forall j, j < k -> (mn <= Z.of_nat j)%Z -> wgtb (row_weight wt (Nat.min (prod_list l1) (prod_list l2)) j d []) thr = true).
Proof. exact (@svd_trunc_any). Qed.
Print Assumptions C90_svd_trunc.

(** [eigh] of a tensor whose dimensions after the cut are those before it: it decomposes the Hermitian tensor with the same lower half. Nothing is
    read from the upper half. A tensor with complex numbers on the diagonal has no such Hermitian tensor. *)
Theorem C90_eigh : forall (N : numeric) (deigh : dense N -> dense N * dense N) (A H : dense N) (l : list nat),
  (forall M, cut_matrix (length l) A M -> eigh_lower deigh M) -> dsh A = l ++ l -> dsh H = l ++ l -> hermitian l H -> lower_half l A H ->
  exists d U, d_eigh deigh A (length l) = Ok (d, U) /\ tensor_factors l l (prod_list l) H U d U /\ tensor_orthonormal l (prod_list l) U /\ real_entries d /\
    forall c, c < prod_list l -> eigenvector l H U d c.
Proof. exact eigh_any. Qed.
Print Assumptions C90_eigh.

(** Other dimensions after the cut, with as many entries: the values and vectors of the matrix, with the dimensions before the cut. *)
Theorem C90_matrix : forall (N : numeric) (deigh : dense N -> dense N * dense N) (A : dense N) (l1 l2 : list nat),
  dsh A = l1 ++ l2 -> prod_list l1 = prod_list l2 ->
  exists M, cut_matrix (length l1) A M /\ (dsh (fst (deigh M)) = [prod_list l1] -> dsh (snd (deigh M)) = [prod_list l1; prod_list l1] ->
    exists U, d_eigh deigh A (length l1) = Ok (fst (deigh M), U) /\ dsh U = l1 ++ [prod_list l1] /\
    (forall i c, in_range l1 i = true -> c < prod_list l1 -> dv U (i ++ [c]) = dv (snd (deigh M)) [rowmajor l1 i; c]) /\
    (orthonormal (prod_list l1) (prod_list l1) (snd (deigh M)) -> tensor_orthonormal l1 (prod_list l1) U)).
Proof. exact eigh_matrix. Qed.
Print Assumptions C90_matrix.
Theorem C90_rejects : forall (N : numeric) (deigh : dense N -> dense N * dense N) (A : dense N) (split : nat),
  (length (dsh A) < split -> d_eigh deigh A split = Throw TorchError) /\
  (split <= length (dsh A) -> prod_list (firstn split (dsh A)) <> prod_list (skipn split (dsh A)) -> d_eigh deigh A split = Throw InvalidArgument).
Proof. exact eigh_rejects. Qed.
Print Assumptions C90_rejects.

(** The truncated [eigh] keeps the first values, each with its eigenvector. How many is decided by the entries of the eigenvectors, not by the values:
    dropping goes on as long as no row of the tensor of eigenvectors loses more than the threshold. Missing for the full claim: that the values
    dropped are the least important ones, which is false, see below. *)
Theorem C90_trunc_partial : forall (N : numeric) (W : weights) (wt : N -> W) (thr : W) (deigh : dense N -> dense N * dense N) (A H : dense N) (l : list nat) (mn mx : Z),
  (forall M, cut_matrix (length l) A M -> eigh_lower deigh M) -> dsh A = l ++ l -> dsh H = l ++ l -> hermitian l H -> lower_half l A H ->
  1 <= prod_list l -> (Z.of_nat (prod_list l) <= 2 ^ 63)%Z -> (1 <= mn <= mx)%Z ->
  exists d U k, d_eigh deigh A (length l) = Ok (d, U) /\ d_eigh_trunc deigh wt thr A (length l) mn mx = Some (Ok (mkD [k] (dv d), mkD (l ++ [k]) (dv U))) /\
    tensor_orthonormal l k (mkD (l ++ [k]) (dv U)) /\ (forall c, c < k -> eigenvector l H (mkD (l ++ [k]) (dv U)) (mkD [k] (dv d)) c) /\
    1 <= k <= prod_list l /\ (Z.min mn (Z.of_nat (prod_list l)) <= Z.of_nat k <= mx)%Z /\
    (k < prod_list l -> some_row_loses wt l (prod_list l) k U thr -> Z.of_nat k = mx) /\
    (forall j, j < k -> (mn <= Z.of_nat j)%Z -> some_row_loses wt l (prod_list l) j U thr).
Proof. exact (@eigh_trunc_any). Qed.
Print Assumptions C90_trunc_partial.

(** Torch gives the eigenvalues in ascending order. The diagonal of zero and one with room for one value: zero is kept, though one value suffices to
    give back the whole tensor. *)
Theorem C90_largest_refuted : forall (N : numeric) (W : weights) (wt : N -> W) (thr : W), exists (deigh : dense N -> dense N * dense N) (A d U : dense N),
  dsh A = [2; 2] /\ hermitian [2] A /\ (forall M, cut_matrix 1 A M -> eigenpairs M (deigh M) /\ ascending_values (fst (deigh M)) 2) /\
  d_eigh_trunc deigh wt thr A 1 1 1 = Some (Ok (d, U)) /\ dsh d = [1] /\ dv d [0] = rz /\ dv A [1; 1] = ro /\
  exists d' U', tensor_factors [2] [2] 1 A U' d' U' /\ tensor_orthonormal [2] 1 U'.
Proof. exact (@largest_dropped). Qed.
Print Assumptions C90_largest_refuted.
(** The tolerance: values that together weigh less are kept when one weighs more, and a value that weighs more is dropped when one weighs less. *)
Theorem C90_small_refuted : forall (N : numeric) (W : weights) (wt : N -> W) (thr : W), wgtb (wt ro) thr = true -> wgtb (wadd (wt rz) (wt rz)) thr = false ->
  exists (deigh : dense N -> dense N * dense N) (A d U : dense N), dsh A = [2; 2] /\ hermitian [2] A /\
    (forall M, cut_matrix 1 A M -> eigenpairs M (deigh M) /\ ascending_values (fst (deigh M)) 2) /\
    d_eigh_tol deigh wt thr A 1 = Some (Ok (d, U)) /\ dsh d = [2] /\ wgtb (row_weight wt 2 0 d []) thr = false.
Proof. exact (@small_kept). Qed.
Print Assumptions C90_small_refuted.
Theorem C90_large_refuted : forall (N : numeric) (W : weights) (wt : N -> W) (thr : W) (x : N), le N rz x ->
  wgtb (wt ro) thr = false -> wgtb (wt rz) thr = false -> wgtb (wt x) thr = true ->
  exists (deigh : dense N -> dense N * dense N) (A d U : dense N), dsh A = [2; 2] /\ hermitian [2] A /\
    (forall M, cut_matrix 1 A M -> eigenpairs M (deigh M) /\ ascending_values (fst (deigh M)) 2) /\
    d_eigh_tol deigh wt thr A 1 = Some (Ok (d, U)) /\ dsh d = [1] /\ dv d [0] = rz /\ dv A [1; 1] = x.
Proof. exact (@large_dropped). Qed.
Print Assumptions C90_large_refuted.

(** The hypotheses hold for the exchange of two states as a tensor of rank four whose upper half is wrong, and for a tensor of rank three cut before its
    last dimension. *)
Example C90_ex : forall (N : numeric),
  (dsh (swap_low N) = [1; 2] ++ [1; 2] /\ dsh (swap_all N) = [1; 2] ++ [1; 2] /\ hermitian [1; 2] (swap_all N) /\ lower_half [1; 2] (swap_low N) (swap_all N) /\
    dv (swap_low N) [0; 0; 0; 1] <> dv (swap_all N) [0; 0; 0; 1] /\ (forall M, cut_matrix 2 (swap_low N) M -> eigh_lower (@swap_eigh N) M)) /\
  (dsh (diag3 N) = [1; 2] ++ [2] /\ forall M, cut_matrix 2 (diag3 N) M -> thin M (diag_svd N M) /\ real_entries (snd (fst (diag_svd N M))) /\ isometries M (diag_svd N M)).
Proof. exact (fun N => Logic.conj (swap_ex N) (svd_ex N)). Qed.
Print Assumptions C90_ex.
