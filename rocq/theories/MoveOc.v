(** Model of the displacement of the orthogonality centre of a chain, with the decompositions it is made of. Model only. As in
    [Chain] the functions take the tensor operations they call; the dense decomposition of matrices, [torch::svd], is an
    argument. The state left behind by a call that throws half way is not modelled. *)
From Verif Require Import Base Quantity Ring Index SpecIndex Dense BTensor BTensorArith Tensordot SpecTensordot View Bcast Chain BSvd Dmrg.
Set Implicit Arguments.

Section Alg.
  Variable T : Type.
  Variable tsvd : T -> nat -> result (T * T * T).
  Variable tmul : T -> T -> result T.
  Variable tdot : T -> T -> list nat -> list nat -> result T.
  Variable tconj : T -> T.
  Variable tperm : list nat -> T -> result T.

  (** sources/MPT.cpp:86-97, one turn of the first loop of [bMPS::move_oc]: new tensors at [oc - 1] and [oc]. *)
  Definition b_pull (next curr : T) : result (T * T) :=
    do (ud, v) <- tsvd curr 1 ;
    let '(u, d) := ud in
    do curr' <- tperm [2; 0; 1] (tconj v) ;
    do ud <- tmul u d ;
    do next' <- tdot next ud [2] [0] ;
    Ok (next', curr').
  (** sources/MPT.cpp:100-109, one turn of the second loop: new tensors at [oc] and [oc + 1]. *)
  Definition b_push (curr next : T) : result (T * T) :=
    do (ud, v) <- tsvd curr 2 ;
    let '(u, d) := ud in
    do vd <- tmul v d ;
    do next' <- tdot (tconj vd) next [0] [0] ;
    Ok (u, next').
  (** sources/MPT.cpp:42-55, one turn of the first loop of [MPS::move_oc] *)
  Definition d_pull (next curr : T) : result (T * T) :=
    do (ud, v) <- tsvd curr 1 ;
    let '(u, d) := ud in
    do v' <- tperm [2; 0; 1] v ;
    do ud <- tmul u d ;
    do next' <- tdot next ud [2] [0] ;
    Ok (next', tconj v').
  (** sources/MPT.cpp:57-72, one turn of the second loop; [t()] exchanges the dimensions of a matrix. *)
  Definition d_push (curr next : T) : result (T * T) :=
    do (ud, v) <- tsvd curr 2 ;
    let '(u, d) := ud in
    do vd <- tmul v d ;
    do vt <- tperm [1; 0] vd ;
    do next' <- tdot (tconj vt) next [1] [0] ;
    Ok (u, next').

  (** The loops of sources/MPT.cpp:42-72 and 80-110, [k] turns. *)
  Variable pull push : T -> T -> result (T * T).
  Fixpoint moves (k : nat) (left : bool) (sites : list T) (oc : Z) : result (list T * Z) :=
    match k with
    | 0 => Ok (sites, oc)
    | S k =>
        let i := if left then (oc - 1)%Z else oc in
        do a <- zget sites i ;
        do b <- zget sites (i + 1) ;
        do (a', b') <- (if left then pull else push) a b ;
        do s1 <- zset sites i a' ;
        do s2 <- zset s1 (i + 1) b' ;
        moves k left s2 (if left then oc - 1 else oc + 1)%Z
    end.
  Definition move_to (sites : list T) (oc i : Z) : result (list T * Z) :=
    if negb ((0 <=? i) && (i <? Z.of_nat (length sites)))%Z then Throw InvalidArgument
    else if (i <? oc)%Z then moves (Z.to_nat (oc - i)) true sites oc
    else moves (Z.to_nat (i - oc)) false sites oc.
End Alg.

(** sources/LinearAlgebra.cpp:105-119 [svd(A, split)] of a dense tensor; [ArrayRef::slice] refuses a position past the end. *)
Definition d_svd {R : ring} (dsvd : dense R -> dense R * dense R * dense R) (A : dense R) (split : nat) : result (dense R * dense R * dense R) :=
  if length (dsh A) <? split then Throw TorchError
  else
    let l := firstn split (dsh A) in
    let r := skipn split (dsh A) in
    do rA <- t_reshape [prod_list l; prod_list r] A ;
    let '(u, d, v) := dsvd rA in
    do u <- t_reshape (l ++ dsh d) u ;
    do v <- t_reshape (r ++ dsh d) v ;
    Ok (u, d, v).

(** sources/MPT.cpp:75-111 [bMPS::move_oc] *)
Definition bmps_move {G : abgroup} {R : ring} (imax : nat) dsvd (sites : list (btensor G R)) (oc i : Z) : result (list (btensor G R) * Z) :=
  move_to (b_pull (svd_split dsvd) b_mul (tensordot imax) (@conj G R) b_perm) (b_push (svd_split dsvd) b_mul (tensordot imax) (@conj G R)) sites oc i.
(** sources/MPT.cpp:27-74 [MPS::move_oc]; line 31 reads the tensor at [oc] before the loops. *)
Definition mps_move {R : ring} dsvd (sites : list (dense R)) (oc i : Z) : result (list (dense R) * Z) :=
  if negb ((0 <=? i) && (i <? Z.of_nat (length sites)))%Z then Throw InvalidArgument
  else
    do _ <- zget sites oc ;
    move_to (d_pull (d_svd dsvd) (t_zip false rmul) (@t_tdot R) (@t_conj R) (@t_perm R)) (d_push (d_svd dsvd) (t_zip false rmul) (@t_tdot R) (@t_conj R) (@t_perm R)) sites oc i.
