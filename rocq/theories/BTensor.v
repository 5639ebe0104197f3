(** Block tensors: the class [btensor] with its packed metadata, constructors, checks, block access and dense
    conversion. Model only. Release build (NDEBUG): debug-only assertions are not modelled. *)
From Verif Require Import Base Quantity QuantityProofs FlatMap Ring Index Dense.
Set Implicit Arguments.

(** A loop with early exit by exception or undefined behaviour. *)
Fixpoint rfold {S A} (f : S -> A -> result S) (l : list A) (s : S) : result S :=
  match l with [] => Ok s | a :: l' => do s' <- f s a ; rfold f l' s' end.
Fixpoint rmapM {A B} (f : A -> result B) (l : list A) : result (list B) :=
  match l with [] => Ok [] | a :: l' => do b <- f a ; do r <- rmapM f l' ; Ok (b :: r) end.
(** [v[i]]: out of range is undefined behaviour. *)
Definition rnth {A} (l : list A) (i : nat) : result A := match nth_error l i with Some a => Ok a | None => UB end.

Section BT.
  Variable G : abgroup.
  Variable R : ring.

  (** include/blockTensor/btensor.h:812-836, private members. *)
  Record btensor : Type := mkB {
    b_rule : G;                              (* selection_rule *)
    b_rank : nat;                            (* rank *)
    b_sbd : list nat;                        (* sections_by_dim *)
    b_ss : list nat;                         (* sections_sizes *)
    b_cv : list G;                           (* c_vals *)
    b_blocks : list (list nat * dense R);    (* blocks_list *)
  }.
  Implicit Types T : btensor.

  Definition with_blocks T bl : btensor := mkB (b_rule T) (b_rank T) (b_sbd T) (b_ss T) (b_cv T) bl.
  Definition with_rule T q : btensor := mkB q (b_rank T) (b_sbd T) (b_ss T) (b_cv T) (b_blocks T).

  (** A default constructed [torch::Tensor]: undefined, one dimension of size 0. *)
  Definition undefined_tensor : dense R := mkD [0] (fun _ => rz).

  (** sources/btensor.cpp:261-299, 333-350: constructor from a list (one entry per dimension) of (size, quantity)
      lists; no block is stored. *)
  Definition of_struct (l : list (list (nat * G))) (q : G) : btensor :=
    mkB q (length l) (map (@length _) l) (map fst (concat l)) (map snd (concat l)) [].

  (** include/blockTensor/btensor.h:987-992 [sparse_zeros_like], 849-854 *)
  Definition sparse_zeros_like T : btensor := with_blocks T [].

  (** sources/btensor.cpp:68-85 *)
  Definition section_size T (d b : nat) : result nat := rnth (b_ss T) (address (b_sbd T) d b).
  Definition section_conserved_qtt T (d b : nat) : result G := rnth (b_cv T) (address (b_sbd T) d b).

  (** include/blockTensor/btensor.h:1101-1215 [block_prop_view]: the value iterator moves by the number of sections of
      each dimension; dereferencing adds the block index. The range ends when the three iterators reach their ends
      together, otherwise the loop runs past the vectors (UB). *)
  Fixpoint block_view {A} (sbd : list nat) (packed : list A) (idx : list nat) : result (list A) :=
    match sbd, idx with
    | [], [] => match packed with [] => Ok [] | _ => UB end
    | n :: sbd', b :: idx' =>
        do x <- rnth packed b ; do r <- block_view sbd' (skipn n packed) idx' ; Ok (x :: r)
    | _, _ => UB
    end.
  (** sources/btensor.cpp:469-482 *)
  Definition block_quantities T idx : result (list G) := block_view (b_sbd T) (b_cv T) idx.
  Definition block_sizes T idx : result (list nat) := block_view (b_sbd T) (b_ss T) idx.

  (** sources/btensor.cpp:363-372 *)
  Definition block_conservation_rule_test T idx : result bool :=
    do qs <- block_quantities T idx ; Ok (qeqb G (fold_left (qop G) qs (qe G)) (b_rule T)).

  (** sources/btensor.cpp:385-397 [block]; the rank exception is constructed but not thrown. Result: the updated
      tensor and the position of the block in the block list. *)
  Definition block T idx : result (btensor * nat) :=
    do ok <- block_conservation_rule_test T idx ;
    if ok then
      let '(l, p) := fm_subscript lexb undefined_tensor (b_blocks T) idx in
      Ok (with_blocks T l, p)
    else Throw InvalidArgument.
  (** [out.block(index) = value] *)
  Definition block_assign T idx v : result btensor :=
    do ok <- block_conservation_rule_test T idx ;
    if ok then Ok (with_blocks T (fm_subscript_assign lexb undefined_tensor (b_blocks T) idx v))
    else Throw InvalidArgument.
  (** sources/btensor.cpp:373 [block_at] *)
  Definition block_at T idx : result (dense R) := fm_at lexb (b_blocks T) idx.

  (** sources/btensor.cpp:405-467 [check_tensor]; [Ok true] stands for the empty message. *)
  Definition check_block T (e : list nat * dense R) : result bool :=
    let '(ind, t) := e in
    do s <- rfold (fun '(ok, q) i =>
        do n <- rnth (b_sbd T) i ;
        do x <- rnth ind i ;
        do c <- section_conserved_qtt T i x ;
        Ok (ok && (x <? n), qop G q c)) (seq 0 (length ind)) (length ind =? b_rank T, qe G) ;
    let ok := fst s && qeqb G (snd s) (b_rule T) in
    if length (dsh t) =? b_rank T then
      rfold (fun ok i =>
        do x <- rnth ind i ;
        do sz <- section_size T i x ;
        do dsz <- rnth (dsh t) i ;
        Ok (ok && (sz =? dsz))) (seq 0 (b_rank T)) ok
    else Ok false.
  Definition check_tensor T : result bool :=
    rfold (fun ok e => do b <- check_block T e ; Ok (ok && b)) (b_blocks T)
      ((b_rank T =? length (b_sbd T)) && (sum_list (b_sbd T) =? length (b_ss T))).

  (** sources/btensor.cpp:301-311: constructor from all members. *)
  Definition make T : result btensor :=
    do ok <- check_tensor T ; if ok then Ok T else Throw InvalidArgument.

  (** sources/btensor.cpp:312-321 *)
  Definition sizes T : list nat := map (fun d => sum_list (prange (b_sbd T) (b_ss T) d)) (seq 0 (b_rank T)).

  (** sources/btensor.cpp:2472-2490 [full_slice]: origins and lengths of the slices. *)
  Definition full_slice T (idx : list nat) : result (list (nat * nat)) :=
    rmapM (fun i =>
      let r := prange (b_sbd T) (b_ss T) i in
      do b <- rnth idx i ;
      if length r <=? b then Throw InvalidArgument
      else do l <- rnth r b ; Ok (sum_list (firstn b r), l)) (seq 0 (b_rank T)).

  (** sources/btensor.cpp:2491-2503 [to_dense]. [index_put_] of a tensor whose shape is not that of the slice throws
      (broadcasting of a wrongly shaped block is not modelled). *)
  Definition to_dense T : result (dense R) :=
    rfold (fun out '(idx, t) =>
      do sl <- full_slice T idx ;
      if leqb (map snd sl) (dsh t) then Ok (d_put (map fst sl) t out) else Throw TorchError)
      (b_blocks T) (d_zeros (sizes T)).

  (** sources/btensor.cpp:2340-2354 [factory_wrap]: do/while over the odometer; [fuel] is the number of iterations
      after which the model gives up (explicit [UB], proved unreachable). *)
  Fixpoint odo_loop {S} (body : S -> list nat -> result S) (inc : list nat -> list nat) (fuel : nat)
    (s : S) (idx : list nat) : result S :=
    match fuel with
    | 0 => UB
    | Datatypes.S f =>
        do s' <- body s idx ;
        let idx' := inc idx in
        if any_truth idx' then odo_loop body inc f s' idx' else Ok s'
    end.
  (** [factory] also gets the block index: random factories give every block other values. *)
  Definition factory_wrap T (factory : list nat -> list nat -> dense R) : result btensor :=
    odo_loop (fun out idx =>
        do ok <- block_conservation_rule_test out idx ;
        if ok then do sh <- block_sizes out idx ; block_assign out idx (factory idx sh) else Ok out)
      (inc_left (b_sbd T)) (S (prod_list (b_sbd T))) T (zeros (b_rank T)).
  (** sources/btensor.cpp:2355-2443, 2459-2470: zeros/ones/full/empty/rand, each [factory_wrap] with a torch factory. *)
  Definition full_like T (c : R) : result btensor := factory_wrap (sparse_zeros_like T) (fun _ sh => d_full sh c).
  (** sources/btensor.cpp:2399-2404 [rand_like]; [rnd] is the random source. *)
  Definition rand_like T (rnd : list nat -> list nat -> dense R) : result btensor := factory_wrap (sparse_zeros_like T) rnd.

  (** sources/btensor.cpp:2444-2458 [eye_like] *)
  Definition eye_like T : result btensor :=
    if negb (b_rank T =? 2) then Throw InvalidArgument
    else
      do n0 <- rnth (b_sbd T) 0 ; do n1 <- rnth (b_sbd T) 1 ;
      rfold (fun out i =>
        do ok <- block_conservation_rule_test out [i; i] ;
        if ok then
          do sh <- block_sizes out [i; i] ;
          Ok (with_blocks out (fm_subscript_assign lexb undefined_tensor (b_blocks out) [i; i]
               (d_eye (nth 0 sh 0) (nth 1 sh 0))))
        else Ok out) (seq 0 (Nat.min n0 n1)) (sparse_zeros_like T).

  (** sources/btensor.cpp:2505-2543 [from_basic_impl], [from_basic_tensor_like]; [signif] is the test
      [vector_norm(block) > cutoff]. The size of [values] is not checked by the code. *)
  Definition from_basic T (values : dense R) (signif : dense R -> bool) : result btensor :=
    if negb (b_rank T =? length (dsh values)) then Throw InvalidArgument
    else
      odo_loop (fun out idx =>
          do ok <- block_conservation_rule_test out idx ;
          if ok then
            do sl <- full_slice out idx ;
            let blk := d_slice (map fst sl) (map snd sl) values in
            if signif blk then block_assign out idx blk else Ok out
          else Ok out)
        (inc_left (b_sbd T)) (S (prod_list (b_sbd T))) (sparse_zeros_like T) (zeros (b_rank T)).

  (** sources/btensor.cpp:169-190 [btensor_compute_max_size] *)
  Definition compute_max_size T (max : nat) : result nat :=
    if b_rank T =? 0 then Ok 1
    else
      do s <- rfold (fun '(n, idx) (_ : nat) =>
          do ok <- block_conservation_rule_test T idx ;
          Ok (n + b2n ok, inc_left (b_sbd T) idx))
        (seq 0 (Nat.min max (prod_list (b_sbd T)))) (0, zeros (b_rank T)) ;
      Ok (fst s).

  (** sources/btensor.cpp:231-260 [tensor_list_size_guess]: stops when the count reaches [max_guess] = 50. The list of
      dimensions is given in packed form. *)
  Fixpoint size_guess_loop T (n : nat) (guess : nat) (idx : list nat) : result nat :=
    match n with
    | 0 => Ok guess
    | S n' =>
        do ok <- block_conservation_rule_test T idx ;
        let guess := guess + b2n ok in
        if guess =? 50 then Ok guess else size_guess_loop T n' guess (inc_left (b_sbd T) idx)
    end.
  Definition tensor_list_size_guess T : result nat := size_guess_loop T (prod_list (b_sbd T)) 0 (zeros (b_rank T)).

  (** sources/btensor.cpp:2152-2208 *)
  Definition inverse_cvals T : btensor :=
    mkB (qinv G (b_rule T)) (b_rank T) (b_sbd T) (b_ss T) (map (qinv G) (b_cv T)) (b_blocks T).
  (** include/blockTensor/btensor.h:945-972 [new_block_list_apply_to_all_blocks]: every entry is emplaced at the end. *)
  Definition map_blocks (f : dense R -> dense R) T : btensor :=
    with_blocks T (map (fun e => (fst e, f (snd e))) (b_blocks T)).
  Definition conj_only T : btensor := map_blocks (d_map rconj) T.
  Definition conj T : btensor := inverse_cvals (conj_only T).
  (** sources/btensor.cpp:2214-2222 [shift_impl] *)
  Definition shift_impl T (shift : G) (dim : nat) : result btensor :=
    if b_rank T <=? dim then Throw InvalidArgument
    else
      let o := sum_list (firstn dim (b_sbd T)) in
      let n := nth dim (b_sbd T) 0 in
      Ok (mkB (b_rule T) (b_rank T) (b_sbd T) (b_ss T)
        (firstn o (b_cv T) ++ map (fun q => qop G q shift) (firstn n (skipn o (b_cv T))) ++ skipn (o + n) (b_cv T))
        (b_blocks T)).
  Definition cval_shift_ T (shift : G) (dim : nat) : result btensor :=
    do T' <- shift_impl T shift dim ; Ok (with_rule T' (qop G (b_rule T') (qinv G shift))).
  Definition is_empty T : bool := match b_blocks T with [] => true | _ => false end.
  Definition non_conserving_cval_shift_ T (shift : G) (dim : nat) : result btensor :=
    if is_empty T then shift_impl T shift dim else Throw LogicError.
  Definition shift_selection_rule_ T (shift : G) : result btensor :=
    if is_empty T then Ok (with_rule T (qop G (b_rule T) shift)) else Throw LogicError.
  Definition set_selection_rule_ T (q : G) : result btensor :=
    if is_empty T then Ok (with_rule T q) else Throw LogicError.

  (** sources/btensor.cpp:322-331 [item]; [item()] of a torch tensor with other than one element throws. *)
  Definition d_item (t : dense R) : result R :=
    if prod_list (dsh t) =? 1 then Ok (dv t (zeros (length (dsh t)))) else Throw TorchError.
  Definition item T : result R :=
    match b_blocks T with
    | [] => Ok rz
    | [(_, t)] => d_item t
    | _ => Throw LogicError
    end.

  (** sources/btensor.cpp:1499-1509 [sum] *)
  Definition bt_sum T : btensor :=
    mkB (b_rule T) 0 [] [] [] [([], d_scalar (fold_left (fun acc e => radd acc (d_sum (snd e))) (b_blocks T) rz))].

  (** [std::vector::operator==] *)
  Fixpoint list_eqb {A} (eqb : A -> A -> bool) (l m : list A) : bool :=
    match l, m with
    | [], [] => true
    | a :: l', b :: m' => eqb a b && list_eqb eqb l' m'
    | _, _ => false
    end.
  (** sources/btensor.cpp:2223-2229 [test_same_shape] *)
  Definition test_same_shape (a b : btensor) : bool :=
    list_eqb (qeqb G) (b_cv a) (b_cv b) && qeqb G (b_rule a) (b_rule b) && leqb (b_ss a) (b_ss b).
  (** sources/btensor.cpp:2230-2238 [add_tensor_check]; the three exception types are all rejections. *)
  Definition add_tensor_check (a b : btensor) : result unit :=
    if negb (list_eqb (qeqb G) (b_cv a) (b_cv b)) then Throw InvalidArgument
    else if negb (qeqb G (b_rule a) (b_rule b)) then Throw InvalidArgument
    else if negb (leqb (b_ss a) (b_ss b)) then Throw InvalidArgument
    else Ok tt.

  (** sources/btensor.cpp:2544-2590 [allclose]. [close x y] is the element test of [torch::allclose(x, y)]
      (asymmetric: the tolerance is relative to the second argument). [torch::allclose] on tensors of different shapes
      broadcasts or throws; not modelled ([tclose] is used on blocks of equal shape by valid tensors). *)
  Variable close : R -> R -> bool.
  Definition tclose (x y : dense R) : bool := forallb (fun i => close (dv x i) (dv y i)) (SpecIndex.idxs (dsh x)).
  Definition tclose0 (x : dense R) : bool := tclose x (d_zeros (dsh x)).
  Fixpoint allclose_loop (la lb : list (list nat * dense R)) {struct la} : bool :=
    let fix inner (lb : list (list nat * dense R)) : bool :=
      match la, lb with
      | [], _ => forallb (fun e => tclose0 (snd e)) lb
      | _, [] => forallb (fun e => tclose0 (snd e)) la
      | (ia, ta) :: la', (ib, tb) :: lb' =>
          if lexb ia ib then tclose0 ta && allclose_loop la' lb
          else if lexb ib ia then tclose0 tb && inner lb'
          else tclose ta tb && allclose_loop la' lb'
      end
    in inner lb.
  Definition allclose (a b : btensor) : bool :=
    if test_same_shape a b then allclose_loop (b_blocks a) (b_blocks b) else false.

  (** sources/btensor.cpp:3102-3115 [any]; [truth] tells a true element. [None] is the undefined tensor returned for a
      tensor without blocks. The accumulator is combined with [&=] as in the source. *)
  Variable truth : R -> bool.
  Definition d_any (t : dense R) : bool := existsb (fun i => truth (dv t i)) (SpecIndex.idxs (dsh t)).
  Fixpoint any_loop (l : list (list nat * dense R)) (out : bool) : bool :=
    match l with
    | [] => out
    | (_, t) :: l' => if out then out else any_loop l' (out && d_any t)
    end.
  Definition any (T : btensor) : option bool :=
    match b_blocks T with
    | [] => None
    | (_, t) :: _ => Some (any_loop (b_blocks T) (d_any t))
    end.
End BT.
