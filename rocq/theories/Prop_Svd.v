(** Singular value decomposition of block tensors (C36). *)
From Verif Require Import Base Quantity QuantityProofs Ring Index SpecIndex Dense BTensor SpecBTensor BTensorThms BTensorEx SpecChain SpecEdges SpecSector BSvd SpecSvd SvdDense SvdEx.
From Coq Require Import Lia.

(** C36. Full claim: whatever the dense decomposition of the matrices of each sector, as long as it is one, the factors of a
    tensor cut at [s] are valid, carry the announced quantities and rules, and give the tensor back; if the dense factors are
    isometries so are the factors, and if the dense values are real so are the values; the values of each section are
    the dense values of a matrix that holds a stored block. Missing: tensors without blocks when the dimensions have to be regrouped (below) and tensors
    with an empty dimension. *)
Theorem C36_svd_matrix_partial : forall (G : abgroup) (R : ring) dsvd (T : btensor G R) D,
  valid T -> nonempty T -> b_rank T = 2 -> dense_form T D -> (forall M, sector_matrix 1 T D M -> thin M (dsvd M)) ->
  exists U d W k, svd dsvd T = Ok (U, d, W) /\ decomposition 1 T D U d W k /\
    ((forall M, sector_matrix 1 T D M -> isometries M (dsvd M)) -> isometric 1 T U W k) /\
    ((forall M, sector_matrix 1 T D M -> real_entries (snd (fst (dsvd M)))) -> forall Dd, dense_form d Dd -> real_entries Dd) /\
    section_values 1 T D (fun M => snd (fst (dsvd M))) d (length (fst k)).
Proof. exact (@svd_matrix). Qed.
Print Assumptions C36_svd_matrix_partial.
Theorem C36_svd_split_partial : forall (G : abgroup) (R : ring) dsvd (T : btensor G R) D s,
  valid T -> nonempty T -> 0 < s < b_rank T -> b_blocks T <> [] -> dense_form T D -> (forall M, sector_matrix s T D M -> thin M (dsvd M)) ->
  exists U d W k, svd_split dsvd T s = Ok (U, d, W) /\ decomposition s T D U d W k /\
    ((forall M, sector_matrix s T D M -> isometries M (dsvd M)) -> isometric s T U W k) /\
    ((forall M, sector_matrix s T D M -> real_entries (snd (fst (dsvd M)))) -> forall Dd, dense_form d Dd -> real_entries Dd) /\
    section_values s T D (fun M => snd (fst (dsvd M))) d (length (fst k)).
Proof. exact (@svd_split_ok). Qed.
Print Assumptions C36_svd_split_partial.
(** A valid tensor without blocks, the zero tensor: the new dimension has no section and its quantities are read. *)
Theorem C36_zero_refuted : exists (G : abgroup) (R : ring) (T : btensor G R), valid T /\ nonempty T /\ b_rank T = 3 /\ b_blocks T = [] /\
  forall dsvd, svd_split dsvd T 1 = UB.
Proof. exact svd_split_zero. Qed.
Print Assumptions C36_zero_refuted.

(** A decomposition of every matrix: one factor is the identity. *)
Example C36_thin_ex : forall (R : ring) (M : dense R), (exists m n, dsh M = [m; n]) -> thin M (one_sided M).
Proof. exact one_sided_thin. Qed.
(** Sectors of one row and one column: both factors are identities. *)
Example C36_isometries_ex : valid ex1 /\ nonempty ex1 /\ b_rank ex1 = 2 /\ (exists D, dense_form ex1 D) /\
  (forall D M, sector_matrix 1 ex1 D M -> thin M (both_sided M) /\ isometries M (both_sided M)) /\
  show (svd (@both_sided _) ex1) = Ok (Ok [1; 0; 0; 1]%Z, Ok [5; 7]%Z, Ok [0; 1; 1; 0]%Z).
Proof.
  split; [ex_valid|]. split; [nonempty_tac|]. split; [reflexivity|]. split; [apply dense_of; ex_valid|]. split; [|vm_compute; reflexivity].
  intros D M H. apply ex1_sector in H as (m & n & E & Hm & Hn). split; [apply both_sided_thin|apply both_sided_iso]; eauto.
Qed.
(** Larger sectors. *)
Example C36_svd_matrix_ex : valid exA /\ nonempty exA /\ b_rank exA = 2 /\ show (svd (@one_sided _) exA) = Ok (Ok [1; 0; 0; 5; 0; 6]%Z, Ok [1; 1]%Z, Ok [3; 0; 4; 0; 0; 1]%Z).
Proof. split; [exact exA_valid|]. split; [nonempty_tac|]. split; [reflexivity|]. vm_compute. reflexivity. Qed.
(** Three dimensions. *)
Example C36_svd_split_ex : valid ex3 /\ nonempty ex3 /\ b_rank ex3 = 3 /\ b_blocks ex3 <> [] /\
  rmap elems (to_dense ex3) = Ok [0; 2; 3; 0; 4; 0; 0; 0; 5; 0; 0; 0]%Z /\
  show (svd_split (@one_sided _) ex3 1) = Ok (Ok [1; 0; 0; 4; 0; 5]%Z, Ok [1; 1]%Z, Ok [0; 1; 2; 0; 3; 0; 0; 0]%Z) /\ show (svd_split (@one_sided _) ex3 2) = Ok (Ok [1; 0; 0; 3; 0; 4; 0; 0; 0; 5; 0; 0]%Z, Ok [1; 1]%Z, Ok [0; 1; 2; 0]%Z).
Proof.
  split; [ex_valid|]. split; [nonempty_tac|]. split; [reflexivity|]. split; [discriminate|]. repeat split; vm_compute; reflexivity.
Qed.
