(** The memory behind block tensors. Model only. A [torch::Tensor] is a counted handle to a window on a memory; copies of a block tensor share
    handles, views share memories, in-place operations write to memories. Values of the operations: [BTensorArith]. *)
From Verif Require Import Base Quantity FlatMap Ring Index SpecIndex Dense BTensor BTensorArith.
Set Implicit Arguments.

Section Share.
  Context {G : abgroup} {R : ring}.
  Notation key := (list nat).

  (** A [TensorImpl]: its memory, its sizes and the place of each element. Simplification: places in a memory are named by lists, not offsets. *)
  Record window := mkW { w_mem : nat; w_sh : list nat; w_pos : list nat -> list nat }.
  (** All memories, how many there are, and all windows; handles are positions in the list of windows. *)
  Record heap := mkH { h_mem : nat -> list nat -> R; h_n : nat; h_win : list window }.

  Definition read (h : heap) (i : nat) : dense R :=
    match nth_error (h_win h) i with
    | Some w => mkD (w_sh w) (fun j => h_mem h (w_mem w) (w_pos w j))
    | None => undefined_tensor R
    end.
  (** A new tensor ([clone()], [mul(alpha)], factories): a new memory. *)
  Definition alloc (h : heap) (d : dense R) : heap * nat :=
    (mkH (fun m p => if m =? h_n h then dv d p else h_mem h m p) (S (h_n h)) (h_win h ++ [mkW (h_n h) (dsh d) (fun j => j)]), length (h_win h)).
  (** In-place operations of torch ([add_], [mul_], ...). Simplification: all elements are computed before the first is written (torch throws when
      the operands of [add_] overlap without being the same window). *)
  Definition put (h : heap) (i : nat) (d : dense R) : heap :=
    match nth_error (h_win h) i with
    | Some w => mkH (fun m p => if m =? w_mem w then match find (fun j => leqb (w_pos w j) p) (idxs (w_sh w)) with Some j => dv d j | None => h_mem h m p end
                                else h_mem h m p) (h_n h) (h_win h)
    | None => h
    end.
  (** [tensor.permute(p)]: another window on the same memory. *)
  Definition view (h : heap) (i : nat) (p : list nat) : heap * nat :=
    match nth_error (h_win h) i with
    | Some w => (mkH (h_mem h) (h_n h) (h_win h ++ [mkW (w_mem w) (gather 0 p (w_sh w)) (fun j => w_pos w (gather 0 (inv_perm p) j))]), length (h_win h))
    | None => (h, i)
    end.

  (** A block tensor: its members other than the blocks (values, never shared; the blocks of [t_meta] are not used) and the handles of its blocks. *)
  Record ten := mkT { t_meta : btensor G R; t_blk : list (key * nat) }.
  Definition value (h : heap) (t : ten) : btensor G R := with_blocks (t_meta t) (map (fun e => (fst e, read h (snd e))) (t_blk t)).
  (** A running program: the memories and the variables, temporaries included. *)
  Record st := mkS { s_heap : heap; s_vars : list ten }.

  (** Blocks with memories of their own. *)
  Fixpoint alloc_all (h : heap) (l : list (key * dense R)) : heap * list (key * nat) :=
    match l with
    | [] => (h, [])
    | (k, d) :: l' => let '(h1, i) := alloc h d in let '(h2, r) := alloc_all h1 l' in (h2, (k, i) :: r)
    end.
  (** include/blockTensor/btensor.h:896-910 [apply_to_all_blocks] with an in-place function *)
  Fixpoint put_all (f : dense R -> dense R) (h : heap) (l : list (key * nat)) : heap :=
    match l with [] => h | (_, i) :: l' => put_all f (put h i (f (read h i))) l' end.
  Fixpoint view_all (p : list nat) (h : heap) (l : list (key * nat)) : heap * list (key * nat) :=
    match l with
    | [] => (h, [])
    | (k, i) :: l' => let '(h1, n) := view h i p in let '(h2, r) := view_all p h1 l' in (h2, (gather 0 p k, n) :: r)
    end.

  (** What [merge] does to each block: nothing, the collision function with a block of the source, or the other function; the last with whether
      the block is a copy from the source. *)
  Inductive todo := Mine (i : nat) | Yours (j : nat) | Both (i j : nat) | Alone (copied : bool) (i : nat).
  Definition collide (x y : todo) : todo := match x, y with Mine i, Yours j => Both i j | _, _ => x end.
  Definition alone (x : todo) : todo := match x with Mine i => Alone false i | Yours j => Alone true j | _ => x end.
  Definition plan (l s : list (key * nat)) : result (list (key * todo)) :=
    fm_merge lexb collide alone (map (fun e => (fst e, Mine (snd e))) l) (map (fun e => (fst e, Yours (snd e))) s).
  (** The functions given to [merge]: collision [a.add_(b, alpha)]; otherwise [x = x.mul(alpha)] when [fresh] and [x.mul_(alpha)] when not.
      Simplification: from the last block to the first, as the loops of [merge] go, also within the groups of blocks they copy. *)
  Fixpoint run (alpha : R) (fresh : bool -> nat -> bool) (h : heap) (l : list (key * todo)) : heap * list (key * nat) :=
    match l with
    | [] => (h, [])
    | (k, x) :: l' =>
        let '(h1, r) := run alpha fresh h l' in
        match x with
        | Mine i | Yours i => (h1, (k, i) :: r)
        | Both i j => (put h1 i (d_axpy alpha (read h1 i) (read h1 j)), (k, i) :: r)
        | Alone c i =>
            if fresh c i then let '(h2, n) := alloc h1 (d_scale alpha (read h1 i)) in (h2, (k, n) :: r)
            else (put h1 i (d_scale alpha (read h1 i)), (k, i) :: r)
        end
    end.
  (** sources/btensor.cpp:2317-2327 [get_refcount]: handles to a window. Simplification: counted before the operation, plus one for the copy
      that [merge] makes of a block of the source. *)
  Definition count (l : list (key * nat)) (i : nat) : nat := length (filter (fun e => snd e =? i) l).
  Definition counts (ts : list ten) (i : nat) : nat := count (flat_map t_blk ts) i.

  Inductive op :=
  | ONew (T : btensor G R)            (* a tensor with memories of its own: factories, [tensordot], ... *)
  | OCopy (a : nat)                   (* [btensor x = a;] *)
  | ODrop (a : nat)                   (* end of the life of a variable *)
  | OMap (a : nat) (f : R -> R)       (* [mul(Scalar)], [sqrt()], [abs()], [pow(Scalar)] *)
  | OMapIn (a : nat) (f : R -> R)     (* [mul_(Scalar)], [sqrt_()], [abs_()], [pow_(Scalar)] *)
  | OPerm (a : nat) (p : list Z)      (* [a.permute(p)] *)
  | OAdd (a b : nat) (alpha : R)      (* [a.add(b, alpha)] *)
  | OAddMove (a b : nat) (alpha : R)  (* [a.add(std::move(b), alpha)] or with a temporary [b] *)
  | OAddIn (a b : nat) (alpha : R)    (* [a.add_(b, alpha)] *)
  | OAddInMove (a b : nat) (alpha : R). (* [a.add_(std::move(b), alpha)], [a -= b] with a temporary [b] *)

  Definition push (s : st) (h : heap) (t : ten) : st := mkS h (s_vars s ++ [t]).

  Definition step (s : st) (o : op) : result st :=
    let h := s_heap s in
    match o with
    | ONew T => let '(h', l) := alloc_all h (b_blocks T) in Ok (push s h' (mkT T l))
    | OCopy a => do x <- rnth (s_vars s) a ; Ok (push s h x)
    | ODrop a => do x <- rnth (s_vars s) a ; Ok (mkS h (upd (s_vars s) a (mkT (t_meta x) [])))
    (** sources/btensor.cpp:900-910, 1511-1521, 1541-1562 *)
    | OMap a f =>
        do x <- rnth (s_vars s) a ;
        let '(h', l) := alloc_all h (map (fun e => (fst e, d_map f (read h (snd e)))) (t_blk x)) in Ok (push s h' (mkT (t_meta x) l))
    (** sources/btensor.cpp:895-899, 1522-1540, 1610-1621 *)
    | OMapIn a f => do x <- rnth (s_vars s) a ; Ok (mkS (put_all (d_map f) h (t_blk x)) (s_vars s))
    (** sources/btensor.cpp:1754-1798: the blocks of the result are views *)
    | OPerm a p =>
        do x <- rnth (s_vars s) a ;
        do T <- permute (value h x) p ;
        do q <- rmapM (zdim (b_rank (t_meta x))) p ;
        let '(h', l) := view_all q h (t_blk x) in Ok (push s h' (mkT T (fm_sort lexb l)))
    (** sources/btensor.cpp:2666-2683 [add(const btensor &, Scalar) const]: a copy of [*this], its blocks cloned *)
    | OAdd a b alpha =>
        do x <- rnth (s_vars s) a ; do y <- rnth (s_vars s) b ;
        do _ <- add_tensor_check (t_meta x) (t_meta y) ;
        let '(h1, l) := alloc_all h (map (fun e => (fst e, read h (snd e))) (t_blk x)) in
        do p <- plan l (t_blk y) ;
        let '(h2, out) := run alpha (fun _ _ => true) h1 p in Ok (push s h2 (mkT (t_meta x) out))
    (** sources/btensor.cpp:2688-2711 [add(btensor &&, Scalar) const]: a copy of [*this], whose blocks are not cloned; the first block of the
        result is read *)
    | OAddMove a b alpha =>
        do x <- rnth (s_vars s) a ; do y <- rnth (s_vars s) b ;
        do _ <- add_tensor_check (t_meta x) (t_meta y) ;
        do p <- plan (t_blk x) (t_blk y) ;
        let n := fun (c : bool) i => counts (s_vars s) i + count (t_blk x) i + (if c then 1 else 0) in
        let '(h2, out) := run alpha (fun c i => 2 <? n c i) h p in
        match out with [] => UB | _ => Ok (push s h2 (mkT (t_meta x) out)) end
    (** sources/btensor.cpp:2717-2727 [add_(const btensor &, Scalar)] *)
    | OAddIn a b alpha =>
        do x <- rnth (s_vars s) a ; do y <- rnth (s_vars s) b ;
        do _ <- add_tensor_check (t_meta x) (t_meta y) ;
        do p <- plan (t_blk x) (t_blk y) ;
        let '(h2, out) := run alpha (fun _ _ => true) h p in Ok (mkS h2 (upd (s_vars s) a (mkT (t_meta x) out)))
    (** sources/btensor.cpp:2733-2753 [add_(btensor &&, Scalar)]: the blocks of [b] are moved to a local map first *)
    | OAddInMove a b alpha =>
        do x <- rnth (s_vars s) a ; do y <- rnth (s_vars s) b ;
        do _ <- add_tensor_check (t_meta x) (t_meta y) ;
        do p <- plan (if a =? b then [] else t_blk x) (t_blk y) ;
        let n := fun (c : bool) i => counts (s_vars s) i + (if c then 1 else 0) in
        let '(h2, out) := run alpha (fun c i => 2 <? n c i) h p in
        Ok (mkS h2 (upd (upd (s_vars s) b (mkT (t_meta y) [])) a (mkT (t_meta x) out)))
    end.
  (** A program, from a state without variables. *)
  Definition start : st := mkS (mkH (fun _ _ => rz) 0 []) [].
  Definition runs (s : st) (p : list op) : result st := rfold step p s.
End Share.
