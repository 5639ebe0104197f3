(** Model of the block eigenvalue decomposition, sources/btensor_linalg.cpp:294-389 and 817-830. Model only. The decomposition of
    dense matrices ([torch::linalg::eigh]) is a parameter. As in BSvd.v only tensors with two dimensions are modelled for
    [eigh(tensor, upper)] ([eigh(tensor, split)] calls it on such tensors only). *)
From Verif Require Import Base Quantity FlatMap Ring Index SpecIndex Dense BTensor BTensorArith Tensordot Reshape View BSvd Truncate BTrunc.
Set Implicit Arguments.

Section BEigh.
  Context {G : abgroup} {R : ring}.
  Notation t := (btensor G R).
  Notation slice := (nat * (nat * nat))%type.
  Notation piece := (dense R * list slice * list slice)%type.

  (** The structure of [d] and [U], sources/btensor_linalg.cpp:302-332. [D_block_sizes]: the number of columns of each piece. *)
  Definition eigh_shapes (T : t) (ps : list piece) : result (t * t) :=
    do rq <- rmapM (fun '(_, _, cols) => match cols with [] => UB | (c, _) :: _ => section_conserved_qtt T 1 c end) ps ;
    let ks := map (fun '(M, _, _) => nth 1 (dsh M) 0) ps in
    do leftD <- make (@mkB G R (qe G) 1 [length ps] ks (map (qinv G) rq) []) ;
    do rightD <- make (@mkB G R (qe G) 1 [length ps] ks rq []) ;
    do s <- shape_from T [0; 0]%Z ;
    do d <- shape_from_list [s; rightD] ;
    do d <- neutral_shape_ d ;
    do s <- shape_from T [-1; 0]%Z ;
    do q0 <- section_conserved_qtt T 1 0 ;
    do s <- shift_selection_rule_ s (qinv G q0) ;
    do U <- shape_from_list [s; rightD] ;
    Ok (d, U).

  (** sources/btensor_linalg.cpp:333-350: a place for every block. The undefined tensors stored there are all overwritten by the
      second loop; kept here: a block not allowed by the rule throws before any matrix is decomposed. *)
  Definition may_store (T : t) (k : list nat) : result unit :=
    do ok <- block_conservation_rule_test T k ; if ok then Ok tt else Throw InvalidArgument.
  Definition allocate (U d : t) (ps : list piece) : result nat :=
    rfold (fun bi '(_, rows, _) =>
      do _ <- rfold (fun _ '(r, _) => may_store U [r; bi]) rows tt ;
      do _ <- may_store d [bi] ;
      Ok (S bi)) ps 0.

  (** [torch::linalg::eigh(M, upper ? "U" : "L")]: the eigenvalues and the matrix of the eigenvectors. *)
  Variable deigh : bool -> dense R -> dense R * dense R.
  (** It throws when the matrix is not square. *)
  Definition linalg_eigh (upper : bool) (M : dense R) : result (dense R * dense R) :=
    if nth 0 (dsh M) 0 =? nth 1 (dsh M) 0 then Ok (deigh upper M) else Throw TorchError.

  (** sources/btensor_linalg.cpp:294-368 [eigh(tensor, upper)] *)
  Definition eigh (T : t) (upper : bool) : result (t * t) :=
    do ps <- compact_dense T ;
    do (d, U) <- eigh_shapes T ps ;
    do _ <- allocate U d ps ;
    do r <- rfold (fun '(bi, d, U) '(M, rows, cols) =>
        do (bD, bU) <- linalg_eigh upper M ;
        do U <- put_rows bU bi rows U ;
        do d <- block_assign d [bi] bD ;
        Ok (S bi, d, U)) ps (0, d, U) ;
    let '(_, d, U) := r in Ok (d, U).

  (** sources/btensor_linalg.cpp:369-389 [eigh(tensor, split)] *)
  Definition eigh_split (T : t) (split : nat) : result (t * t) :=
    do rT <- reshape T [split] ;
    do (d, rU) <- eigh rT true ;
    do s <- shape_from T (repeat (-1)%Z split ++ repeat 0%Z (b_rank T - split)) ;
    do s' <- shape_from rU [0; -1]%Z ;
    do s <- shape_from_list [s; s'] ;
    do U <- reshape_as false rU s ;
    Ok (d, U).

  (** sources/btensor_linalg.cpp:817-830: the truncated [eigh]. *)
  Context {W : weights}.
  Variable gtb : R -> R -> bool.
  Variable lower : R -> R.
  Variable wt : R -> W.
  Definition eigh_trunc (A : t) (split : nat) (thr : W) (mn mx : Z) : option (result (t * t)) :=
    obind (Some (eigh_split A split)) (fun '(e, u) => truncate_es gtb lower wt e u thr mn mx).
  Definition eigh_tol (A : t) (split : nat) (thr : W) : option (result (t * t)) := eigh_trunc A split thr 1 (2 ^ 64 - 1).
End BEigh.
