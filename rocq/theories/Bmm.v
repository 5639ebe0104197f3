(** Batched matrix products of block tensors. Model only. *)
From Verif Require Import Base Quantity FlatMap Ring Index Dense BTensor Tensordot Reshape View Bcast.
Set Implicit Arguments.

(** Longest prefix of a list whose entries satisfy [p]. *)
Fixpoint prefix_of {A} (p : A -> bool) (l : list A) : list A :=
  match l with [] => [] | a :: r => if p a then a :: prefix_of p r else [] end.

(** Parts of a block index: all but the last two entries, the entry before the last one, the last one. *)
Definition batch_of (k : list nat) : list nat := firstn (length k - 2) k.
Definition row_of (k : list nat) : nat := nth (length k - 2) k 0.
Definition col_of (k : list nat) : nat := nth (length k - 1) k 0.
(** sources/btensor.cpp:1334-1358: the order in which the blocks of the second tensor are sorted: batch, column, row. The
    comparator is written as a comparison of indices with the last two entries swapped; all indices have the same length. *)
Definition by_column (a b : list nat) : bool :=
  lexb (batch_of a ++ [col_of a; row_of a]) (batch_of b ++ [col_of b; row_of b]).

Section Bmm.
  Context {G : abgroup} {R : ring}.
  Notation t := (btensor G R).
  Notation entry := (list nat * dense R)%type.

  (** [Tensor::baddbmm_]: batched product of rank-3 tensors added to [c]. *)
  Definition t_baddbmm (c a b : dense R) : result (dense R) :=
    match dsh a, dsh b with
    | [n; x; k], [n'; k'; y] =>
        if (n =? n') && (k =? k') && leqb (dsh c) [n; x; y]
        then Ok (mkD (dsh c) (fun i => radd (dv c i)
               (sumf R (fun s => rmul (dv a [nth 0 i 0; nth 1 i 0; s]) (dv b [nth 0 i 0; s; nth 2 i 0])) (seq 0 k))))
        else Throw TorchError
    | _, _ => Throw TorchError
    end.

  (** sources/btensor.cpp:1123-1193 [check_bmm_compatibility]. [section_sizes(rank - 3)] is only used for the end of the sizes of
      the batch dimensions; it is not called for matrices, which never get here. *)
  Definition check_bmm (a b : t) : result unit :=
    let n := b_rank a in
    if negb (n =? b_rank b) then Throw InvalidArgument
    else if n <? 2 then Throw InvalidArgument
    else if negb (leqb (firstn (n - 2) (b_sbd a)) (firstn (n - 2) (b_sbd b))) then Throw InvalidArgument
    else
      let m := sum_list (firstn (n - 2) (b_sbd a)) in
      if negb (leqb (firstn m (b_ss a)) (firstn m (b_ss b))) then Throw InvalidArgument
      else
        do ka <- rnth (b_sbd a) (n - 1) ; do kb <- rnth (b_sbd b) (n - 2) ;
        if negb (ka =? kb) then Throw InvalidArgument
        else if negb (leqb (prange (b_sbd a) (b_ss a) (n - 1)) (prange (b_sbd b) (b_ss b) (n - 2))) then Throw InvalidArgument
        else if negb (forallb (fun '(x, y) => qeqb G (qop G x y) (qe G))
                        (combine (prange (b_sbd a) (b_cv a) (n - 1)) (prange (b_sbd b) (b_cv b) (n - 2)))) then Throw InvalidArgument
        else Ok tt.

  (** sources/btensor.cpp:1316-1328: the structure of the result, before its rule is set. *)
  Definition bmm_shape (a b : t) : result t :=
    let n := b_rank a in
    let batch_inds := repeat (-1)%Z (n - 2) ++ [0%Z; 0%Z] in
    do sa <- shape_from a batch_inds ;
    do sb <- shape_from b batch_inds ;
    do c <- shape_compute sa sb ;
    let batch := with_rule (snd c) (qe G) in
    do r <- shape_from a (repeat 0%Z (n - 2) ++ [(-1)%Z; 0%Z]) ;
    do l <- shape_from b (repeat 0%Z (n - 1) ++ [(-1)%Z]) ;
    shape_from_list [batch; r; l].

  (** sources/btensor.cpp:1395-1407: both lists are advanced until their first entries have the same batch index. *)
  Fixpoint skip_batch (la lb : list entry) {struct la} : list entry * list entry :=
    let fix inner (lb : list entry) : list entry * list entry :=
      match la, lb with
      | ea :: la', eb :: lb' =>
          if leqb (batch_of (fst ea)) (batch_of (fst eb)) then (la, lb)
          else if lexb (batch_of (fst ea)) (batch_of (fst eb)) then skip_batch la' lb
          else inner lb'
      | _, _ => (la, lb)
      end
    in inner lb.
  (** sources/btensor.cpp:1426-1440: within a row of the first tensor and a column of the second one, the first match; two empty
      lists when there is none. *)
  Fixpoint next_pair (la lb : list entry) {struct la} : list entry * list entry :=
    let fix inner (lb : list entry) : list entry * list entry :=
      match la, lb with
      | ea :: la', eb :: lb' =>
          if col_of (fst ea) =? row_of (fst eb) then (la, lb)
          else if col_of (fst ea) <? row_of (fst eb) then next_pair la' lb
          else inner lb'
      | _, _ => ([], [])
      end
    in inner lb.
  (** sources/btensor.cpp:1456-1489: the products of a row and a column are accumulated. *)
  Fixpoint bmm_acc (fuel reduced : nat) (c : dense R) (la lb : list entry) : result (dense R) :=
    match fuel with
    | 0 => UB
    | Datatypes.S f =>
        match next_pair la lb with
        | ((_, x) :: la', (_, y) :: lb') =>
            do a <- t_reshape [reduced; nth (length (dsh x) - 2) (dsh x) 0; nth (length (dsh x) - 1) (dsh x) 0] x ;
            do b <- t_reshape [reduced; nth (length (dsh y) - 2) (dsh y) 0; nth (length (dsh y) - 1) (dsh y) 0] y ;
            do c' <- t_baddbmm c a b ;
            bmm_acc f reduced c' la' lb'
        | _ => Ok c
        end
    end.
  (** sources/btensor.cpp:1415-1491: the loop over the columns of the second tensor, for one row of the first one; [lb] has the
      blocks of the batch. The products are accumulated in a copy of the block, put back at the end. *)
  Fixpoint bmm_cols (fuel : nat) (row lb : list entry) (out : t) : result t :=
    match lb with
    | [] => Ok out
    | (kb, _) :: _ =>
        match fuel with
        | 0 => UB
        | Datatypes.S f =>
            let column := prefix_of (fun e => col_of (fst e) =? col_of kb) lb in
            let lb' := skipn (length column) lb in
            match next_pair row column with
            | (((ka, _) :: _) as ra, ca) =>
                let ind := firstn (length ka - 1) ka ++ [col_of kb] in
                do sz <- block_sizes out ind ;
                let reduced := prod_list (firstn (length sz - 2) sz) in
                let zero := d_zeros [reduced; nth (length sz - 2) sz 0; nth (length sz - 1) sz 0] in
                do out1 <- block_assign out ind zero ;
                do v <- bmm_acc (Datatypes.S (length row)) reduced zero ra ca ;
                do v' <- t_reshape sz v ;
                do out2 <- block_assign out1 ind v' ;
                bmm_cols f row lb' out2
            | _ => bmm_cols f row lb' out
            end
        end
    end.
  (** sources/btensor.cpp:1393-1495: the loop over the rows of the first tensor. *)
  Fixpoint bmm_rows (fuel : nat) (la lb : list entry) (out : t) : result t :=
    match skip_batch la lb with
    | (((ka, _) :: _) as la', ((kb, _) :: _) as lb') =>
        match fuel with
        | 0 => UB
        | Datatypes.S f =>
            let row := prefix_of (fun e => leqb (batch_of ka) (batch_of (fst e)) && (row_of (fst e) =? row_of ka)) la' in
            let batch := prefix_of (fun e => leqb (batch_of (fst e)) (batch_of kb)) lb' in
            do out' <- bmm_cols (Datatypes.S (length batch)) row batch out ;
            bmm_rows f (skipn (length row) la') lb' out'
        end
    | _ => Ok out
    end.

  (** sources/btensor.cpp:1315-1497 [bmm] of tensors that are not both matrices. Reserving memory has no effect here. *)
  Definition bmm_batched (a b : t) : result t :=
    do _ <- check_bmm a b ;
    do s <- bmm_shape a b ;
    let out := with_rule s (qop G (b_rule a) (b_rule b)) in
    bmm_rows (Datatypes.S (length (b_blocks a))) (b_blocks a) (fm_sort by_column (b_blocks b)) out.
  (** sources/btensor.cpp:1304-1314: matrices get a leading dimension of one section of size one and neutral quantity. *)
  Definition bmm (a b : t) : result t :=
    if (b_rank a =? 2) && (b_rank b =? 2) then
      let triv := @of_struct G R [[(1, qe G)]] (qe G) in
      do sa <- shape_from_list [triv; a] ; do a' <- reshape_as false a sa ;
      do sb <- shape_from_list [triv; b] ; do b' <- reshape_as false b sb ;
      do c <- bmm_batched a' b' ;
      squeeze_dim c 0
    else bmm_batched a b.
End Bmm.
