(** Eigenvalue decompositions, independent of the functions of the code. *)
From Verif Require Import Base Quantity QuantityProofs FlatMap Ring Index SpecIndex Dense BTensor SpecBTensor SpecReshape SpecChain SpecSector SpecSvd.
Set Implicit Arguments.

Section M.
  Context {R : ring}.
  Definition hermitian_matrix (M : dense R) : Prop := exists n, dsh M = [n; n] /\ forall i j, i < n -> j < n -> dv M [i; j] = rconj (dv M [j; i]).
  (** [e] holds real values, the columns of [U] are orthonormal, and [M] is U diag(e) U^H: what [torch::linalg::eigh] returns
      for a Hermitian matrix. *)
  Definition eigenpairs (M : dense R) (F : dense R * dense R) : Prop :=
    let '(e, U) := F in forall n, dsh M = [n; n] -> factors n n n M U e U /\ orthonormal n n U /\ real_entries e.
  (** A tensor whose dimensions are two copies of some of sizes [s]. *)
  Definition hermitian (s : list nat) (D : dense R) : Prop :=
    forall i j, in_range s i = true -> in_range s j = true -> dv D (i ++ j) = rconj (dv D (j ++ i)).
End M.

Section B.
  Context {G : abgroup} {R : ring}.
  Notation t := (btensor G R).
  Notation stores := (SpecReshape.stored).
  Notation sizes L := (map (@bsz G) L).
  (** A neutral tensor from the dimensions [L] to their duals. *)
  Definition square (s : nat) (T : t) (L : list (list nat * list G)) : Prop := length L = s /\ blegs T = L ++ map (@bdual G) L /\ b_rule T = qe G.
  (** With a block its transpose is stored too. *)
  Definition symmetric_blocks (s : nat) (T : t) : Prop := forall i j, length i = s -> length j = s -> stores T (i ++ j) -> stores T (j ++ i).
  (** The columns of blocks of a sector first appear in ascending order when the blocks are read row by row: a column [j'] before
      the column [j] of a stored block of row [i] has a block in a row that does not come after [i]. *)
  Definition columns_in_order (s : nat) (T : t) : Prop := forall i j i' j', length i = s -> length j = s -> length i' = s -> length j' = s ->
    stores T (i ++ j) -> stores T (i' ++ j') -> lexb j' j = true -> block_quantity s T (i' ++ j') = block_quantity s T (i ++ j) ->
    exists i0, length i0 = s /\ (i0 = i \/ lexb i0 i = true) /\ stores T (i0 ++ j').
  (** Every block allowed by the rule is stored. *)
  Definition all_blocks (T : t) : Prop := forall b, allowed T b -> stores T b.
  (** Every block on the diagonal is stored; the rule allows them all when the tensor is square. *)
  Definition diagonal_blocks (s : nat) (T : t) : Prop := forall i, length i = s -> allowed T (i ++ i) -> stores T (i ++ i).
  (** The quantity of the first section of each dimension from [s] on, together; these sections are not empty. *)
  Definition first_quantity (s : nat) (T : t) : G := qprod G (map (fun q => nth 0 q (qe G)) (skipn s (qlegs T))).
  Definition first_sections (s : nat) (T : t) : Prop := forall l, In l (skipn s (legs T)) -> 0 < nth 0 l 0.
  (** [M] is a submatrix of the dense form [D] with the same rows and columns, which all carry one quantity. *)
  Definition principal (s : nat) (T : t) (D M : dense R) : Prop := exists n f q, dsh M = [n; n] /\
    (forall i, i < n -> index_carries (firstn s (blegs T)) (f i) q) /\ (forall i i', i < n -> i' < n -> f i = f i' -> i = i') /\
    forall i j, i < n -> j < n -> dv M [i; j] = dv D (f i ++ f j).
  (** [d] and [U] are the eigenvalues and eigenvectors of [T] with the new dimension [k]. *)
  Definition eigen_decomposition (s : nat) (T : t) (D : dense R) (d U : t) (k : list nat * list G) : Prop :=
    valid d /\ valid U /\ length (snd k) = length (fst k) /\ NoDup (snd k) /\ bsz G k <= prod_list (sizes (firstn s (blegs T))) /\
    blegs U = firstn s (blegs T) ++ [k] /\ blegs d = [neutral_leg k] /\ b_rule U = qe G /\ b_rule d = qe G /\
    exists Dd DU, dense_form d Dd /\ dense_form U DU /\ real_entries Dd /\
      tensor_factors (sizes (firstn s (blegs T))) (sizes (firstn s (blegs T))) (bsz G k) D DU Dd DU /\
      tensor_orthonormal (sizes (firstn s (blegs T))) (bsz G k) DU.
  (** Each of the sections of [d] holds the values [vals M] of a sector. *)
  Definition section_eigenvalues (s : nat) (T : t) (D : dense R) (vals : dense R -> dense R) (d : t) (n : nat) : Prop :=
    forall c, c < n -> exists M, principal s T D M /\ holds_sector s T M /\ In ([c], vals M) (b_blocks d).
End B.
