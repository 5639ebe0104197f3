(** Model of [btensor::tensordot] and its helpers. *)
From Verif Require Import Base Quantity FlatMap Ring Index SpecIndex Dense BTensor BTensorArith.
Set Implicit Arguments.

Section Tdot.
  Context {G : abgroup} {R : ring}.
  Implicit Types T : btensor G R.
  Notation entry := (list nat * dense R)%type.

  (** [std::numeric_limits<int64_t>::max()]: kept symbolic, the theorems only need it not to be smaller than any number of
      sections. *)
  Variable imax : nat.

  (** sources/btensor.cpp:782-825 [check_product_compat<true>]. The dimension numbers are used unchecked and unwrapped: out
      of range (or negative, not modelled) is undefined behaviour. The sizes of the sections are not compared. *)
  Definition check_product_compat (T1 T2 : btensor G R) (d1 d2 : list nat) : result unit :=
    rfold (fun _ '(i, j) =>
      do s1 <- rnth (b_sbd T1) i ;
      do s2 <- rnth (b_sbd T2) j ;
      if negb (s1 =? s2) then Throw TorchError
      else if forallb (fun '(q1, q2) => qeqb G (qop G q1 q2) (qe G))
                (combine (prange (b_sbd T1) (b_cv T1) i) (prange (b_sbd T2) (b_cv T2) j)) then Ok tt
      else Throw TorchError) (combine d1 d2) tt.

  (** [at::dim_list_to_bitset] throws on a repeated or out of range dimension. *)
  Fixpoint distinct (l : list nat) : bool :=
    match l with [] => true | x :: r => negb (existsb (Nat.eqb x) r) && distinct r end.
  Definition bitset_ok (l : list nat) (n : nat) : bool := distinct l && forallb (fun x => x <? n) l.
  (** Dimensions outside of the list, in order. *)
  Definition others (n : nat) (l : list nat) : list nat := filter (fun i => negb (existsb (Nat.eqb i) l)) (seq 0 n).

  (** sources/btensor.cpp:841-883 [compute_tdot_shape]: the two permutations and the section numbers of the result. *)
  Definition compute_tdot_shape (T1 T2 : btensor G R) (d1 d2 : list nat) : result (list nat * list nat * list nat) :=
    if negb (length d1 =? length d2) then Throw TorchError
    else
      do _ <- check_product_compat T1 T2 d1 d2 ;
      if negb (bitset_ok d1 (b_rank T1) && bitset_ok d2 (b_rank T2)) then Throw TorchError
      else
        do s1 <- rmapM (rnth (b_sbd T1)) (others (b_rank T1) d1) ;
        do s2 <- rmapM (rnth (b_sbd T2)) (others (b_rank T2) d2) ;
        Ok (others (b_rank T1) d1 ++ d1, d2 ++ others (b_rank T2) d2, s1 ++ s2).

  (** [tens.reshape({a, b})] and [view]: throws when the number of elements differs. *)
  Definition t_reshape (sh : list nat) (t : dense R) : result (dense R) :=
    if prod_list sh =? prod_list (dsh t) then Ok (d_reshape sh t) else Throw TorchError.

  (** sources/btensor.cpp:1843-1894 [permute_bl]. The restriding of matrices with a dimension of size one does not change
      values. *)
  Definition permute_bl (l : list entry) (bp tp : list nat) (split : nat) : result (list entry) :=
    do out <- rmapM (fun '(idx, t) =>
        do idx' <- rmapM (rnth idx) bp ;
        do t' <- t_permute tp t ;
        do m <- t_reshape [prod_list (firstn split (dsh t')); prod_list (skipn split (dsh t'))] t' ;
        Ok (idx', m)) l ;
    Ok (fm_sort lexb out).

  (** sources/btensor.cpp:1908-1935 [compute_tdot_cval_sectSize] *)
  Definition tdot_packed {A} (sbd1 : list nat) (pk1 : list A) (sbd2 : list nat) (pk2 : list A) (p1 p2 : list nat) (dim_l : nat) : list A :=
    flat_map (fun d => prange sbd1 pk1 d) (firstn (length p1 - dim_l) p1) ++
    flat_map (fun d => prange sbd2 pk2 d) (skipn dim_l p2).

  (** [torch::mm], and [addmm_] *)
  Definition t_mm (a b : dense R) : result (dense R) :=
    match dsh a, dsh b with
    | [x; k], [k'; y] =>
        if k =? k' then Ok (mkD [x; y] (fun i => sumf R (fun c => rmul (dv a [nth 0 i 0; c]) (dv b [c; nth 1 i 0])) (seq 0 k)))
        else Throw TorchError
    | _, _ => Throw TorchError
    end.
  Definition t_addmm (m a b : dense R) : result (dense R) :=
    do p <- t_mm a b ; if leqb (dsh m) (dsh p) then Ok (d_zip radd m p) else Throw TorchError.

  Section Loops.
    Variable dim_l : nat.
    (** The last [dim_l] entries of a block index, and the others. *)
    Definition tail_of (k : list nat) : list nat := skipn (length k - dim_l) k.
    Definition head_of (k : list nat) : list nat := firstn (length k - dim_l) k.

    (** sources/btensor.cpp:2000-2015 [next_index] *)
    Definition next_index (k : list nat) : list nat :=
      match k with
      | [] => []
      | _ => if dim_l =? 0 then upd k (length k - 1) (nth (length k - 1) k 0 + 1) else upd k (length k - dim_l) imax
      end.
    (** sources/btensor.cpp:2016-2039 [find_next_match]; two empty lists when there is no match. *)
    Fixpoint find_next_match (la lb : list entry) {struct la} : list entry * list entry :=
      let fix inner (lb : list entry) : list entry * list entry :=
        match la, lb with
        | ea :: la', eb :: lb' =>
            if lexb (tail_of (fst ea)) (tail_of (fst eb)) then find_next_match la' lb
            else if lexb (tail_of (fst eb)) (tail_of (fst ea)) then inner lb'
            else (la, lb)
        | _, _ => ([], [])
        end
      in inner lb.
    (** sources/btensor.cpp:2094-2104: the remaining matches of a pair of columns. *)
    Fixpoint addmm_loop (fuel : nat) (m : dense R) (la lb : list entry) : result (dense R) :=
      match fuel with
      | 0 => UB
      | Datatypes.S f =>
          match find_next_match la lb with
          | (ea :: la', eb :: lb') => do m' <- t_addmm m (snd ea) (snd eb) ; addmm_loop f m' la' (eb :: lb')
          | _ => Ok m
          end
      end.

    Variable out : btensor G R.
    (** sources/btensor.cpp:2064-2111: the loop over the columns of the second tensor. [cap] is the length of [out_list];
        [k1] is the index of the first block of the column of the first tensor. A loop that does not advance is undefined
        behaviour (it has no side effect); here it runs out of fuel. *)
    Fixpoint inner_loop (fuel cap : nat) (k1 : list nat) (col1 : list entry) (l2 : list entry) (acc : list entry) : result (list entry) :=
      match l2 with
      | [] => Ok acc
      | (k2, _) :: _ =>
          if cap <=? length acc then Ok acc
          else
            match fuel with
            | 0 => UB
            | Datatypes.S f =>
                let n := lower_bound lexb (next_index k2) l2 in
                let idx := head_of k1 ++ head_of k2 in
                match find_next_match col1 (firstn n l2) with
                | (ea :: la, eb :: lb) =>
                    do sz <- block_sizes out idx ;
                    do m <- t_mm (snd ea) (snd eb) ;
                    do m' <- addmm_loop (Datatypes.S (length la)) m la (eb :: lb) ;
                    do blk <- t_reshape sz m' ;
                    inner_loop f cap k1 col1 (skipn n l2) (acc ++ [(idx, blk)])
                | _ => inner_loop f cap k1 col1 (skipn n l2) acc
                end
            end
      end.
    (** sources/btensor.cpp:2056-2114: the loop over the columns of the first tensor. *)
    Fixpoint outer_loop (fuel cap : nat) (l1 l2 : list entry) (acc : list entry) : result (list entry) :=
      match l1 with
      | [] => Ok acc
      | (k1, _) :: _ =>
          if cap <=? length acc then Ok acc
          else
            match fuel with
            | 0 => UB
            | Datatypes.S f =>
                let n := lower_bound lexb (next_index k1) l1 in
                do acc' <- inner_loop (Datatypes.S (length l2)) cap k1 (firstn n l1) l2 acc ;
                outer_loop f cap (skipn n l1) l2 acc'
            end
      end.
  End Loops.

  (** sources/btensor.cpp:1971-2119 [tensordot] *)
  Definition tensordot (T1 T2 : btensor G R) (d1 d2 : list nat) : result (btensor G R) :=
    let dim_l := length d1 in
    do (p1, p2, sbd) <- compute_tdot_shape T1 T2 d1 d2 ;
    do t1 <- permute_bl (b_blocks T1) p1 p1 (b_rank T1 - dim_l) ;
    let p2' := skipn dim_l p2 ++ firstn dim_l p2 in
    do t2 <- permute_bl (b_blocks T2) p2' p2 dim_l ;
    do out <- make (@mkB G R (qop G (b_rule T1) (b_rule T2)) (length sbd) sbd
                (tdot_packed (b_sbd T1) (b_ss T1) (b_sbd T2) (b_ss T2) p1 p2 dim_l)
                (tdot_packed (b_sbd T1) (b_cv T1) (b_sbd T2) (b_cv T2) p1 p2 dim_l) []) ;
    do acc <- outer_loop dim_l out (Datatypes.S (length t1)) (Nat.max (prod_list sbd) 1) t1 t2 [] ;
    Ok (with_blocks out (fm_sort lexb acc)).
End Tdot.
