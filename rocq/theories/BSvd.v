(** Model of the block singular value decomposition, sources/btensor_linalg.cpp. Model only. The decomposition of dense
    matrices ([torch::svd]) is a parameter. Only tensors with two dimensions are modelled ([svd(tensor, split)] calls [svd] on
    such tensors only); [some] and [compute_uv] have their default value, true. Iterators moved beyond the end of a vector
    without being read (the last [++it2] of [compact_dense]) are not counted as undefined. *)
From Verif Require Import Base Quantity FlatMap Ring Index SpecIndex Dense BTensor BTensorArith Tensordot Reshape View.
Set Implicit Arguments.

Section BSvd.
  Context {G : abgroup} {R : ring}.
  Notation t := (btensor G R).
  Notation entry := (list nat * dense R)%type.
  Notation slice := (nat * (nat * nat))%type.   (* section, origin and length of its slice *)

  (** Row and column of a block. *)
  Definition row_of (e : entry) : nat := nth 0 (fst e) 0.
  Definition col_of (e : entry) : nat := nth 1 (fst e) 0.
  (** sources/btensor_linalg.cpp:57-60 [row_qtt\[i\]], [col_qtt\[j\]]: reads through the beginning of the range; an index beyond
      the vector gives the neutral quantity here. *)
  Definition qtt (T : t) (d b : nat) : G := nth b (prange (b_sbd T) (b_cv T) d) (qe G).
  (** sources/btensor_linalg.cpp:55-65: the comparison of two blocks. *)
  Definition cval_lt (T : t) (a b : entry) : bool :=
    qltb G (qtt T 0 (row_of a)) (qtt T 0 (row_of b)) ||
    (qeqb G (qtt T 0 (row_of a)) (qtt T 0 (row_of b)) && qltb G (qtt T 1 (col_of a)) (qtt T 1 (col_of b))).
  (** [std::stable_sort] by its meaning: sorted, and blocks that compare equal keep their order. *)
  Fixpoint stable_insert (lt : entry -> entry -> bool) (x : entry) (l : list entry) : list entry :=
    match l with [] => [x] | y :: r => if lt y x then y :: stable_insert lt x r else x :: l end.
  Definition stable_sort (lt : entry -> entry -> bool) (l : list entry) : list entry := fold_right (stable_insert lt) [] l.
  (** sources/btensor_linalg.cpp:30-67 *)
  Definition reorder_by_cvals (T : t) : list entry := stable_sort (cval_lt T) (b_blocks T).

  (** sources/btensor_linalg.cpp:223-230 *)
  Definition equal_c_vals (T : t) (a b : entry) : bool :=
    qeqb G (qtt T 1 (col_of a)) (qtt T 1 (col_of b)) && qeqb G (qtt T 0 (row_of a)) (qtt T 0 (row_of b)).
  (** sources/btensor_linalg.cpp:234-251: the ranges [it1, it2) given to [compact_dense_single]; [x] is the block at [it1]. The
      output vector has one place per range ([compact_tensor_count], 164-186, counts them by comparing neighbours). *)
  Fixpoint runs (eqv : entry -> entry -> bool) (x : entry) (acc l : list entry) : list (list entry) :=
    match l with
    | [] => [acc]
    | y :: r => if eqv x y then runs eqv x (acc ++ [y]) r else acc :: runs eqv y [y] r
    end.

  (** Sizes of a block (two dimensions). *)
  Definition rows_n (e : entry) : nat := nth 0 (dsh (snd e)) 0.
  Definition cols_n (e : entry) : nat := nth 1 (dsh (snd e)) 0.
  (** sources/btensor_linalg.cpp:115-124: a column not met before gets the next slice; the list is ordered by column. *)
  Definition meet_col (s : nat * list slice) (e : entry) : nat * list slice :=
    let '(acc, cols) := s in
    let pos := lower_bound Nat.ltb (col_of e) cols in
    if match nth_error cols pos with None => true | Some c => negb (fst c =? col_of e) end
    then (acc + cols_n e, vec_insert pos (col_of e, (acc, cols_n e)) cols) else s.
  (** sources/btensor_linalg.cpp:125-132: a row different from the previous one gets the next slice. *)
  Definition meet_row (s : nat * nat * list slice) (e : entry) : nat * nat * list slice :=
    let '(cur, acc, rows) := s in
    if negb (cur =? row_of e) then (row_of e, acc + rows_n e, rows ++ [(row_of e, (acc, rows_n e))]) else s.
  (** [std::find_if]: the slice of a section; reading the end of the list is undefined. *)
  Fixpoint find_slice (b : nat) (l : list slice) : result (nat * nat) :=
    match l with [] => UB | (k, s) :: r => if k =? b then Ok s else find_slice b r end.
  (** sources/btensor_linalg.cpp:80-150 [compact_dense_single] *)
  Definition compact_dense_single (p : list entry) : result (dense R * list slice * list slice) :=
    match p with
    | [] => UB
    | x :: _ =>
        let '(_, m, rows) := fold_left meet_row p (row_of x, rows_n x, [(row_of x, (0, rows_n x))]) in
        let '(n, cols) := fold_left meet_col p (0, []) in
        do M <- rfold (fun M e =>
          do c <- find_slice (col_of e) cols ;
          do r <- find_slice (row_of e) rows ;
          if leqb [snd r; snd c] (dsh (snd e)) then Ok (d_put [fst r; fst c] (snd e) M) else Throw TorchError)
          p (d_zeros [m; n]) ;
        Ok (M, rows, cols)
    end.
  (** sources/btensor_linalg.cpp:199-255 [compact_dense] *)
  Definition compact_dense (T : t) : result (list (dense R * list slice * list slice)) :=
    rmapM compact_dense_single
      (match reorder_by_cvals T with [] => [] | x :: r => runs (equal_c_vals T) x [x] r end).

  (** sources/btensor.cpp:770-780 [neutral_shape_] *)
  Definition neutral_shape_ (T : t) : result t :=
    if is_empty T then Ok (@mkB G R (qe G) (b_rank T) (b_sbd T) (b_ss T) (map (fun _ => qe G) (b_cv T)) []) else Throw LogicError.
  (** sources/btensor_linalg.cpp:484-494: blocks [(section, b_i)] of U (or V) cut out of the factor of piece [b_i]. *)
  Definition put_rows (F : dense R) (bi : nat) (l : list slice) (T : t) : result t :=
    rfold (fun T '(r, (o, n)) => block_assign T [r; bi] (d_slice [o; 0] [n; nth 1 (dsh F) 0] F)) l T.
  (** The structure of the three factors, sources/btensor_linalg.cpp:397-453. *)
  Definition svd_shapes (T : t) (ps : list (dense R * list slice * list slice)) : result (t * t * t) :=
    do rq <- rmapM (fun '(_, _, cols) => match cols with [] => UB | (c, _) :: _ => section_conserved_qtt T 1 c end) ps ;
    let ks := map (fun '(M, _, _) => Nat.min (nth 1 (dsh M) 0) (nth 0 (dsh M) 0)) ps in
    do leftD <- make (@mkB G R (qe G) 1 [length ps] ks (map (qinv G) rq) []) ;
    do rightD <- make (@mkB G R (qe G) 1 [length ps] ks rq []) ;
    do s <- shape_from T [0; 0]%Z ;
    do d <- shape_from_list [s; rightD] ;
    do d <- neutral_shape_ d ;
    do s <- shape_from T [-1; 0]%Z ;
    do U <- shape_from_list [s; rightD] ;
    do U <- set_selection_rule_ U (b_rule T) ;
    do s <- shape_from T [0; 0]%Z ;
    do s <- neutral_shape_ s ;
    do s' <- shape_from T [0; -1]%Z ;
    do V <- shape_from_list [s; s'; leftD] ;
    do V <- set_selection_rule_ V (qe G) ;
    Ok (U, d, V).

  (** [torch::svd]: U, the singular values, V. *)
  Variable dsvd : dense R -> dense R * dense R * dense R.

  (** sources/btensor_linalg.cpp:390-502 [svd(tensor)]. The blocks first stored as undefined tensors (459-478) are the blocks
      assigned in the second loop (479-498): the first loop is left out. *)
  Definition svd (T : t) : result (t * t * t) :=
    do ps <- compact_dense T ;
    do UdV <- svd_shapes T ps ;
    do r <- rfold (fun '(bi, U, d, V) '(M, rows, cols) =>
        let '(bU, bD, bV) := dsvd M in
        do U <- put_rows bU bi rows U ;
        do V <- put_rows bV bi cols V ;
        do d <- block_assign d [bi] bD ;
        Ok (S bi, U, d, V)) ps (let '(U, d, V) := UdV in (0, U, d, V)) ;
    let '(_, U, d, V) := r in
    Ok (U, d, inverse_cvals V).

  (** sources/btensor_linalg.cpp:503-534 [svd(tensor, split)] *)
  Definition svd_split (T : t) (split : nat) : result (t * t * t) :=
    do rT <- reshape T [split] ;
    do (Ud, rV) <- svd rT ;
    let '(rU, d) := Ud in
    do s <- shape_from T (repeat (-1)%Z split ++ repeat 0%Z (b_rank T - split)) ;
    do s' <- shape_from rU [0; -1]%Z ;
    do s <- shape_from_list [s; s'] ;
    do U <- reshape_as false rU s ;
    do s <- shape_from T (repeat 0%Z split ++ repeat (-1)%Z (b_rank T - split)) ;
    do s' <- shape_from rV [0; -1]%Z ;
    do s <- shape_from_list [inverse_cvals s; s'] ;
    do V <- reshape_as false rV s ;
    Ok (U, d, V).
End BSvd.
