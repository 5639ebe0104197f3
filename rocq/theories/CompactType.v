(** Model of the element type of the matrices a block tensor is cut into, sources/btensor_linalg.cpp:80-150, 199-255. Model only. *)
From Verif Require Import Base Quantity FlatMap Ring Index SpecIndex Dense BTensor BTensorArith Tensordot BSvd.
Set Implicit Arguments.

Section Typed.
  Context {G : abgroup} {R : ring}.
  Notation t := (btensor G R).
  Notation entry := (list nat * dense R)%type.
  Notation slice := (nat * (nat * nat))%type.
  (** What a tensor of torch's default element type keeps of a number copied into it: the identity for a wider type, the real part of a complex number
      for a real type. *)
  Variable store : R -> R.
  (** sources/btensor_linalg.cpp:134-144: [torch::zeros(tensor_size)] has the default element type, not that of the blocks; [index_put_] copies the blocks into it. The rest as in BSvd.v. *)
  Definition put_block (rows cols : list slice) (M : dense R) (e : entry) : result (dense R) :=
    do c <- find_slice (col_of e) cols ;
    do r <- find_slice (row_of e) rows ;
    if leqb [snd r; snd c] (dsh (snd e)) then Ok (d_put [fst r; fst c] (d_map store (snd e)) M) else Throw TorchError.
  Definition compact_single_typed (p : list entry) : result (dense R * list slice * list slice) :=
    match p with
    | [] => UB
    | x :: _ =>
        let '(_, m, rows) := fold_left meet_row p (row_of x, rows_n x, [(row_of x, (0, rows_n x))]) in
        let '(n, cols) := fold_left meet_col p (0, []) in
        do M <- rfold (put_block rows cols) p (d_zeros [m; n]) ;
        Ok (M, rows, cols)
    end.
  (** sources/btensor_linalg.cpp:199-255, two dimensions *)
  Definition compact_typed (T : t) : result (list (dense R * list slice * list slice)) :=
    rmapM compact_single_typed
      (match reorder_by_cvals T with [] => [] | x :: r => runs (equal_c_vals T) x [x] r end).
End Typed.
