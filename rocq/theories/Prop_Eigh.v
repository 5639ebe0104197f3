(** Eigenvalue decomposition of block tensors (C41). *)
From Verif Require Import Base Quantity QuantityProofs Ring RingQc Index SpecIndex Dense BTensor SpecBTensor BTensorEx SpecReshape SpecChain SpecEdges SpecSector SpecSvd SvdEx Truncate BEigh SpecEigh EighThms EighSplit EighRule EighEx.
From Coq Require Import Lia QArith Qcanon.
Local Open Scope nat_scope.

(** C41. Full claim: for every valid Hermitian tensor [eigh] returns values and vectors that are valid, the values are real, the
    vectors orthonormal, and together they give the tensor back. Proved for tensors with at least one block in which the
    transpose of every stored block is stored, the columns of each sector are met in ascending order, and twice the quantity of the first
    section is neutral; the dense decomposition is only used on the square sectors of the tensor. The counter-examples below show
    that each of the conditions matters. *)
Theorem C41_eigh_matrix_partial : forall (G : abgroup) (R : ring) deigh (T : btensor G R) L D upper,
  valid T -> nonempty T -> square 1 T L -> dense_form T D -> hermitian (map (@bsz G) L) D -> symmetric_blocks 1 T -> columns_in_order 1 T -> first_sections 1 T ->
  qop G (first_quantity 1 T) (first_quantity 1 T) = qe G -> (forall M, principal 1 T D M -> hermitian_matrix M -> eigenpairs M (deigh upper M)) ->
  exists d U k, eigh deigh T upper = Ok (d, U) /\ eigen_decomposition 1 T D d U k /\ section_eigenvalues 1 T D (fun M => fst (deigh upper M)) d (length (fst k)) /\
    (diagonal_blocks 1 T -> bsz G k = prod_list (map (@bsz G) L)).
Proof. exact (@eigh_matrix). Qed.
Print Assumptions C41_eigh_matrix_partial.
Theorem C41_eigh_split_partial : forall (G : abgroup) (R : ring) deigh (T : btensor G R) L D s,
  valid T -> nonempty T -> square s T L -> 0 < s -> dense_form T D -> b_blocks T <> [] -> hermitian (map (@bsz G) L) D -> symmetric_blocks s T -> columns_in_order s T -> first_sections s T ->
  qop G (first_quantity s T) (first_quantity s T) = qe G -> (forall M, principal s T D M -> hermitian_matrix M -> eigenpairs M (deigh true M)) ->
  exists d U k, eigh_split deigh T s = Ok (d, U) /\ eigen_decomposition s T D d U k /\ section_eigenvalues s T D (fun M => fst (deigh true M)) d (length (fst k)) /\
    (diagonal_blocks s T -> bsz G k = prod_list (map (@bsz G) L)).
Proof. exact (fun G R deigh T L D s V N SQ Hs FD NB HD SB CO FS FQ HC => @eigh_split_ok G R T s L D V N SQ Hs FD deigh NB HD SB CO FS FQ HC). Qed.
Print Assumptions C41_eigh_split_partial.
(** Tensors that store every allowed block, as those of the factories, meet the conditions on the stored blocks. *)
Theorem C41_all_blocks_partial : forall (G : abgroup) (R : ring) s (T : btensor G R) L,
  valid T -> nonempty T -> 0 < s -> square s T L -> all_blocks T -> symmetric_blocks s T /\ columns_in_order s T.
Proof. exact (@all_blocks_symmetric). Qed.
Print Assumptions C41_all_blocks_partial.

(** Every tensor of two dimensions with a block is rejected when twice the quantity of the first section is not neutral. *)
Theorem C41_first_section_refuted : forall (G : abgroup) (R : ring) deigh upper (T : btensor G R),
  valid T -> nonempty T -> b_rank T = 2 -> b_blocks T <> [] -> first_sections 1 T -> qop G (first_quantity 1 T) (first_quantity 1 T) <> qe G ->
  eigh deigh T upper = Throw InvalidArgument.
Proof. exact (@eigh_rejects). Qed.
Print Assumptions C41_first_section_refuted.
(** A Hermitian tensor whose zero blocks are not stored: the result is not its decomposition. *)
Theorem C41_order_refuted : exists (T : zt) L D, valid T /\ nonempty T /\ square 1 T L /\ dense_form T D /\ hermitian (map (@bsz _) L) D /\ symmetric_blocks 1 T /\ first_sections 1 T /\ first_quantity 1 T = qe z_group /\
  forall deigh, (forall M, identity2 M -> eigenpairs M (deigh true M)) ->
    exists d U, eigh deigh T true = Ok (d, U) /\ valid d /\ valid U /\ forall Dd DU, dense_form d Dd -> dense_form U DU -> ~ tensor_factors (map (@bsz _) L) (map (@bsz _) L) 2 D DU Dd DU.
Proof. exact order_refuted. Qed.
Print Assumptions C41_order_refuted.
(** A zero block stored without its transpose: throws. *)
Theorem C41_storage_refuted : exists (T : zt) L D, valid T /\ nonempty T /\ square 1 T L /\ dense_form T D /\ hermitian (map (@bsz _) L) D /\ columns_in_order 1 T /\ first_sections 1 T /\ first_quantity 1 T = qe z_group /\
  forall deigh upper, eigh deigh T upper = Throw TorchError.
Proof. exact storage_refuted. Qed.
Print Assumptions C41_storage_refuted.
(** The zero tensor. *)
Theorem C41_zero_refuted : exists (T : zt) L D, valid T /\ nonempty T /\ square 1 T L /\ dense_form T D /\ hermitian (map (@bsz _) L) D /\ b_blocks T = [] /\ first_sections 1 T /\ first_quantity 1 T = qe z_group /\
  forall deigh, eigh_split deigh T 1 = UB.
Proof. exact zero_refuted. Qed.
Print Assumptions C41_zero_refuted.
(** The truncated [eigh] never returns. *)
Theorem C41_truncated_refuted : forall (G : abgroup) (R : ring) (W : weights) deigh gtb lower (wt : R -> W) (T : btensor G R) s thr mn mx r,
  eigh_trunc deigh gtb lower wt T s thr mn mx <> Some (Ok r).
Proof. exact (@trunc_throws). Qed.
Print Assumptions C41_truncated_refuted.

(** Two sections of one quantity and one of another; the eigenvalues of the first sector are 25 and 50. *)
Example C41_eigh_matrix_ex : valid exR /\ nonempty exR /\ square 1 exR LR /\ dense_form exR DR /\ hermitian (map (@bsz _) LR) DR /\ symmetric_blocks 1 exR /\ columns_in_order 1 exR /\ first_sections 1 exR /\
  qop z_group (first_quantity 1 exR) (first_quantity 1 exR) = qe z_group /\ (forall M, principal 1 exR DR M -> hermitian_matrix M -> eigenpairs M (rot true M)) /\ all_blocks exR /\
  q_show (eigh rot exR true) = Ok (Ok [25 # 1; 50 # 1; 7 # 1]%Q, Ok [3 # 5; -4 # 5; 0 # 1; 4 # 5; 3 # 5; 0 # 1; 0 # 1; 0 # 1; 1 # 1]%Q).
Proof.
  assert (V : valid exR) by ex_valid. assert (N : nonempty exR) by nonempty_tac. destruct (@all_blocks_symmetric _ _ 1 exR LR V N ltac:(lia) (proj1 exR_square) (proj1 exR_all)) as (A & B).
  split; [exact V|]. split; [exact N|]. split; [apply exR_square|]. split; [apply exR_dense|]. split; [apply exR_hermitian|]. split; [exact A|]. split; [exact B|]. split; [apply exR_first|].
  split; [rewrite (proj1 (proj2 (proj2 exR_first))); apply sig_eq; reflexivity|]. split; [intros M HM _; apply exR_correct, HM|]. split; [apply exR_all|]. vm_compute. reflexivity.
Qed.
Example C41_eigh_split_ex : valid exR4 /\ nonempty exR4 /\ square 2 exR4 LR4 /\ dense_form exR4 DR4 /\ b_blocks exR4 <> [] /\ hermitian (map (@bsz _) LR4) DR4 /\ symmetric_blocks 2 exR4 /\ columns_in_order 2 exR4 /\ first_sections 2 exR4 /\
  qop z_group (first_quantity 2 exR4) (first_quantity 2 exR4) = qe z_group /\ (forall M, principal 2 exR4 DR4 M -> hermitian_matrix M -> eigenpairs M (rot true M)) /\ all_blocks exR4 /\
  rmap fst (q_show (eigh_split rot exR4 2)) = Ok (Ok [5 # 1; 25 # 1; 50 # 1; 7 # 1]%Q).
Proof.
  assert (V : valid exR4) by ex_valid. assert (N : nonempty exR4) by nonempty_tac. destruct (@all_blocks_symmetric _ _ 2 exR4 LR4 V N ltac:(lia) (proj2 exR_square) (proj2 exR_all)) as (A & B).
  split; [exact V|]. split; [exact N|]. split; [apply exR_square|]. split; [apply exR_dense|]. split; [discriminate|]. split; [apply exR_hermitian|]. split; [exact A|]. split; [exact B|]. split; [apply exR_first|].
  split; [rewrite (proj2 (proj2 (proj2 exR_first))); apply sig_eq; reflexivity|]. split; [intros M HM _; apply exR4_correct, HM|]. split; [apply exR_all|]. vm_compute. reflexivity.
Qed.
Example C41_first_section_ex : valid exF /\ nonempty exF /\ b_rank exF = 2 /\ b_blocks exF <> [] /\ first_sections 1 exF /\ qop z_group (first_quantity 1 exF) (first_quantity 1 exF) <> qe z_group.
Proof.
  split; [ex_valid|]. split; [nonempty_tac|]. split; [reflexivity|]. split; [discriminate|]. split; [intros l [<-|[]]; cbn; lia|]. intros H. apply (f_equal z_of) in H. vm_compute in H. discriminate.
Qed.
(** There is a decomposition of the identity as [C41_order_refuted] asks for. *)
Example C41_order_ex : exists deigh, forall M, identity2 M -> eigenpairs M (deigh true M).
Proof.
  exists (fun _ _ => (@mkD ring_Z [2] (fun _ => 1%Z), d_id ring_Z 2)). intros M (SM & HM) n E. rewrite SM in E. injection E as <-. split; [|split].
  - split; [reflexivity|]. split; [reflexivity|]. split; [reflexivity|]. intros [|[|]] [|[|]] Hi Hj; try lia; rewrite HM by lia; vm_compute; reflexivity.
  - intros [|[|]] [|[|]] Hi Hj; try lia; vm_compute; reflexivity.
  - intros i _. reflexivity.
Qed.
