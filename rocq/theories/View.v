(** Model of views: [shape_from(dims)], [basic_create_view], [basic_index_put_], [squeeze_], [tensor_product_shape]. *)
From Verif Require Import Base Quantity FlatMap Ring Index SpecIndex Dense BTensor BTensorArith Tensordot Reshape.
Set Implicit Arguments.

Section View.
  Context {G : abgroup} {R : ring}.
  Implicit Types T : btensor G R.
  Notation entry := (list nat * dense R)%type.

  (** sources/btensor.cpp:1937-1947 [tensor_product_shape]; the constructor 1896-1906 checks the metadata. *)
  Definition tensor_product_shape (T1 T2 : btensor G R) : result (btensor G R) :=
    do (pp, sbd) <- compute_tdot_shape T1 T2 [] [] ;
    let '(p1, p2) := pp in
    make (@mkB G R (qop G (b_rule T1) (b_rule T2)) (length sbd) sbd
            (tdot_packed (b_sbd T1) (b_ss T1) (b_sbd T2) (b_ss T2) p1 p2 0)
            (tdot_packed (b_sbd T1) (b_cv T1) (b_sbd T2) (b_cv T2) p1 p2 0) []).
  (** include/blockTensor/btensor.h:1001-1016 [shape_from(btens_list)] *)
  Definition shape_from_list (l : list (btensor G R)) : result (btensor G R) :=
    match l with
    | [] => UB   (* [*btens_list.begin()] *)
    | T :: r => rfold tensor_product_shape r (sparse_zeros_like T)
    end.

  (** Section of a dimension in which an element index falls (sources/btensor.cpp:535-546, 628-637): the loop does not run
      for a negative index. *)
  Definition z_section (sizes : list nat) (a : Z) : nat := if (a <? 0)%Z then 0 else fst (find_section sizes (Z.to_nat a)).
  Definition z_offset (sizes : list nat) (a : Z) : Z := if (a <? 0)%Z then a else Z.of_nat (snd (find_section sizes (Z.to_nat a))).
  (** Pairs each dimension number with its entry of [dims]. *)
  Definition numbered (dims : list Z) : list (nat * Z) := combine (seq 0 (length dims)) dims.

  (** sources/btensor.cpp:492-583 [shape_from(dims)]. Negative entries other than -1 count as kept in the first loop and as
      fixed in the second. *)
  Definition shape_from T (dims : list Z) : result (btensor G R) :=
    if negb (length dims =? b_rank T) then Throw InvalidArgument
    else if negb (forallb (fun '(a, s) => (a <? Z.of_nat s)%Z || (a =? -1)%Z) (combine dims (sizes T))) then Throw InvalidArgument
    else
      do rule <- rfold (fun rule '(i, a) =>
          do c <- section_conserved_qtt T i (z_section (prange (b_sbd T) (b_ss T) i) a) ;
          Ok (if (a <? 0)%Z then rule else qop G rule (qinv G c))) (numbered dims) (b_rule T) ;
      do sbd <- rmapM (fun '(i, _) => rnth (b_sbd T) i) (filter (fun '(_, a) => (a <? 0)%Z) (numbered dims)) ;
      let total := sum_list sbd in
      let kept := filter (fun '(_, a) => (a =? -1)%Z) (numbered dims) in
      let ss := flat_map (fun '(i, _) => prange (b_sbd T) (b_ss T) i) kept in
      let cv := flat_map (fun '(i, _) => prange (b_sbd T) (b_cv T) i) kept in
      make (@mkB G R rule (length sbd) sbd (ss ++ repeat 0 (total - length ss)) (cv ++ repeat (qe G) (total - length cv)) []).

  (** sources/btensor.cpp:609-651 [to_block_basis]: block filter (None for -1) and element index (None for a slice). *)
  Definition to_block_basis T (dims : list Z) : list (option nat) * list (option Z) :=
    (map (fun '(i, a) => if (a =? -1)%Z then None else Some (z_section (prange (b_sbd T) (b_ss T) i) a)) (numbered dims),
     map (fun '(i, a) => if (a =? -1)%Z then None else Some (z_offset (prange (b_sbd T) (b_ss T) i) a)) (numbered dims)).

  (** [torch::Tensor::index] with integers (negative ones count from the end) and full slices, one per dimension: throws when
      an integer is out of range. *)
  Definition wrap (s : nat) (z : Z) : option nat :=
    let w := if (z <? 0)%Z then (z + Z.of_nat s)%Z else z in
    if ((0 <=? w) && (w <? Z.of_nat s))%Z then Some (Z.to_nat w) else None.
  Fixpoint t_positions (sh : list nat) (el : list (option Z)) : result (list (option nat)) :=
    match sh, el with
    | [], [] => Ok []
    | s :: sh', None :: el' => do r <- t_positions sh' el' ; Ok (None :: r)
    | s :: sh', Some z :: el' =>
        match wrap s z with None => Throw TorchError | Some w => do r <- t_positions sh' el' ; Ok (Some w :: r) end
    | _, _ => Throw TorchError
    end.
  (** Full index from the fixed positions and the remaining coordinates, and back. *)
  Fixpoint t_expand (pos : list (option nat)) (i : list nat) : list nat :=
    match pos with
    | [] => []
    | Some a :: r => a :: t_expand r i
    | None :: r => match i with x :: i' => x :: t_expand r i' | [] => 0 :: t_expand r [] end
    end.
  Fixpoint t_rest {A} (pos : list (option nat)) (l : list A) : list A :=
    match pos, l with
    | Some _ :: r, _ :: l' => t_rest r l'
    | None :: r, x :: l' => x :: t_rest r l'
    | _, _ => []
    end.
  Fixpoint t_hits (pos : list (option nat)) (i : list nat) : bool :=
    match pos, i with
    | Some a :: r, x :: i' => (x =? a) && t_hits r i'
    | None :: r, _ :: i' => t_hits r i'
    | [], [] => true
    | _, _ => false
    end.
  Definition t_index (el : list (option Z)) (t : dense R) : result (dense R) :=
    do pos <- t_positions (dsh t) el ; Ok (mkD (t_rest pos (dsh t)) (fun i => dv t (t_expand pos i))).
  (** [index_put_]; a source of another shape than the slice is broadcast or refused by torch, here refused. *)
  Definition t_index_put (el : list (option Z)) (src t : dense R) : result (dense R) :=
    do pos <- t_positions (dsh t) el ;
    if leqb (dsh src) (t_rest pos (dsh t)) then
      Ok (mkD (dsh t) (fun i => if t_hits pos i then dv src (t_rest pos i) else dv t i))
    else Throw TorchError.

  (** sources/btensor.cpp:672-689: the filter stops as soon as all the [n] slots of the output index are filled. [cur] is the
      value last written in the current slot. *)
  Fixpoint view_filter (n cur : nat) (idx : list nat) (flt : list (option nat)) : option (list nat) :=
    match n with
    | 0 => Some []
    | Datatypes.S n' =>
        match idx, flt with
        | i :: idx', None :: flt' => option_map (cons i) (view_filter n' 0 idx' flt')
        | i :: idx', Some b :: flt' => if i =? b then view_filter n i idx' flt' else None
        | _, _ => Some (cur :: zeros n')
        end
    end.
  (** sources/btensor.cpp:585-607 [rank_preserving_shape] *)
  Definition rank_preserving_shape (blocks : list (option nat)) T : result (btensor G R) :=
    do out <- rfold (fun out '(r, b) =>
        match b with
        | None =>
            do s <- shape_from T (map (fun i => if i =? r then (-1)%Z else 0%Z) (seq 0 (b_rank T))) ;
            shape_from_list [out; s]
        | Some b =>
            do c <- section_conserved_qtt T r b ;
            shape_from_list [out; @of_struct G R [[(1, c)]] (qe G)]
        end) (combine (seq 0 (length blocks)) blocks) (@of_struct G R [] (qe G)) ;
    set_selection_rule_ out (b_rule T).
  (** sources/btensor.cpp:661-706 [basic_create_view] *)
  Definition basic_create_view T (dims : list Z) (preserve_rank : bool) : result (btensor G R) :=
    do out <- shape_from T dims ;
    let '(blocks, element) := to_block_basis T dims in
    do l <- rfold (fun l '(idx, t) =>
        match view_filter (b_rank out) 0 idx blocks with
        | None => Ok l
        | Some k => do t' <- t_index element t ; Ok (fm_insert_hint leqb lexb l (length l) (k, t'))
        end) (b_blocks T) [] ;
    let out := with_blocks out l in
    if preserve_rank then
      do x <- rank_preserving_shape blocks T ; reshape_as true out x
    else Ok out.

  (** sources/btensor.cpp:715-727 lambda [output_index]: the value index is dereferenced for every dimension, also past its
      end (where the value read is multiplied by zero): undefined behaviour. *)
  Fixpoint output_index (blocks : list (option nat)) (k : list nat) : result (list nat) :=
    match blocks with
    | [] => Ok []
    | b :: r =>
        match k with
        | [] => UB
        | x :: k' =>
            match b with
            | None => do o <- output_index r k' ; Ok (x :: o)
            | Some b => do o <- output_index r k ; Ok (b :: o)
            end
        end
    end.
  (** sources/btensor.cpp:711-742 [impl_basic_index_put_]. The block is written in place: tensors sharing its storage are not
      modelled. *)
  Definition impl_basic_index_put_ T (dims : list Z) (value : btensor G R) : result (btensor G R) :=
    let '(blocks, element) := to_block_basis T dims in
    rfold (fun T '(k, blk) =>
      do out_ind <- output_index blocks k ;
      do l <- (if fm_contains lexb (b_blocks T) out_ind then Ok (b_blocks T)
               else do sz <- block_sizes T out_ind ; Ok (fst (fst (fm_insert leqb lexb (b_blocks T) (out_ind, d_zeros sz))))) ;
      do t <- fm_at lexb l out_ind ;
      do t' <- t_index_put element blk t ;
      Ok (with_blocks T (fm_subscript_assign lexb (@undefined_tensor R) l out_ind t'))) (b_blocks value) T.
  (** sources/btensor.cpp:744-762 *)
  Definition basic_index_put_dense T (dims : list Z) (value : dense R) (signif : dense R -> bool) : result (btensor G R) :=
    do s <- shape_from T dims ;
    do v <- from_basic s value signif ;
    impl_basic_index_put_ T dims v.
  Definition basic_index_put_ T (dims : list Z) (value : btensor G R) : result (btensor G R) :=
    do s <- shape_from T dims ;
    do _ <- add_tensor_check s value ;
    impl_basic_index_put_ T dims value.

  (** sources/btensor.cpp:2120-2129 [squeeze_(dim)]; the dimension is used unchecked. *)
  Definition unit_dim T (d : nat) : result bool :=
    do n <- rnth (b_sbd T) d ;
    if n =? 1 then do s <- section_size T d 0 ; Ok (s =? 1) else Ok false.
  Definition squeeze_dim T (d : nat) : result (btensor G R) :=
    do u <- unit_dim T d ;
    if u then basic_create_view T (map (fun i => if i =? d then 0%Z else (-1)%Z) (seq 0 (b_rank T))) false else Ok T.
  (** sources/btensor.cpp:2135-2144 [squeeze_()] *)
  Definition squeeze_all T : result (btensor G R) :=
    do us <- rmapM (unit_dim T) (seq 0 (b_rank T)) ;
    do s <- shape_from T (map (fun u : bool => if u then 0%Z else (-1)%Z) us) ;
    reshape_as false T s.
End View.
