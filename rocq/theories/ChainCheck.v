(** Model of the dimension list helpers and of the checks made when a chain of tensors is built. A dense tensor is represented by
    its list of sizes. *)
From Verif Require Import Base Quantity FlatMap Ring Index SpecIndex Dense BTensor BTensorArith Tensordot.
Set Implicit Arguments.

(** ** sources/dimension_manip.cpp *)
(** 19-33 [concat] *)
Definition dims_concat (ls : list (list Z)) : list Z := fold_left (fun out a => out ++ a) ls [].
(** 35-43 [prod]: signed overflow is undefined behaviour. *)
Definition int64_ok (z : Z) : bool := ((- 2 ^ 63 <=? z) && (z <? 2 ^ 63))%Z.
Definition dims_prod (l : list Z) : result Z := rfold (fun out a => if int64_ok (out * a) then Ok (out * a)%Z else UB) l 1%Z.
(** [ArrayRef::slice(start, n)] throws unless [start + n] is at most the size (the sum is not modelled as wrapping);
    58-61 [slice] *)
Definition dims_slice {A} (l : list A) (start n : nat) : result (list A) :=
  if start + n <=? length l then Ok (firstn n (skipn start l)) else Throw TorchError.
(** 45-48 [prod(dims, start, n)] *)
Definition dims_prod_slice (l : list Z) (start n : nat) : result Z := do s <- dims_slice l start n ; dims_prod s.
(** 50-55 [reverse]: the vector is built with [dims.size()] zeros, then the reversed list is inserted in front. *)
Definition dims_reverse (l : list Z) : list Z := rev l ++ repeat 0%Z (length l).

(** ** sources/MPT.cpp:120-132 [MPS::check_ranks] ([r = 3]) and 170-183 [MPO::check_ranks] ([r = 4]). [sizes()[k]] is unchecked:
    undefined behaviour for a tensor of smaller rank. [std::all_of] stops at the first failure. *)
Fixpoint ranks_loop (r : nat) (l : list (list nat)) (prev : nat) : result bool :=
  match l with
  | [] => Ok true
  | el :: l' =>
      do bond <- rnth el 2 ;
      do lft <- rnth el 0 ;
      if (length el =? r) && (prev =? lft) then ranks_loop r l' bond else Ok false
  end.
Definition check_ranks (r : nat) (l : list (list nat)) : result bool :=
  do t <- rnth l 0 ; do prev <- rnth t 0 ; ranks_loop r l prev.
(** 113-118, 134-141 [check_one] *)
Definition check_one (r : nat) (t : list nat) : bool := (length t =? r) && (nth 0 t 0 =? nth 2 t 0).
(** include/MPT.h:320-361: constructors from a list of tensors, and from one tensor repeated. *)
Definition mps_ctor (l : list (list nat)) (oc : nat) : result (list (list nat) * nat) :=
  do ok <- check_ranks 3 l ;
  if negb ok then Throw InvalidArgument
  else if (length l <=? oc) && negb (oc =? 0) then Throw InvalidArgument else Ok (l, oc).
Definition mps_fill (n : nat) (t : list nat) (oc : nat) : result (list (list nat) * nat) :=
  let ok := check_one 3 t in
  if (n <=? oc) && negb (oc =? 0) then Throw InvalidArgument
  else if negb ok then Throw InvalidArgument else Ok (repeat t n, oc).

Section Block.
  Context {G : abgroup} {R : ring}.
  Implicit Types T : btensor G R.
  (** sources/btensor.cpp:782-825 [check_product_compat<false>] on one pair of dimensions. *)
  Definition bond_compat (T1 T2 : btensor G R) (i j : nat) : result bool :=
    do s1 <- rnth (b_sbd T1) i ;
    do s2 <- rnth (b_sbd T2) j ;
    if negb (s1 =? s2) then Ok false
    else Ok (forallb (fun '(q1, q2) => qeqb G (qop G q1 q2) (qe G)) (combine (prange (b_sbd T1) (b_cv T1) i) (prange (b_sbd T2) (b_cv T2) j))).
  (** sources/MPT.cpp:184-209 [bMPO::check_ranks], [bMPS::check_ranks] *)
  Fixpoint b_ranks_loop (r : nat) T (l : list (btensor G R)) : result bool :=
    match l with
    | [] => Ok true
    | T' :: l' =>
        if b_rank T' =? r then
          do c <- bond_compat T T' 2 0 ;
          if c then b_ranks_loop r T' l' else Ok false
        else Ok false
    end.
  Definition b_check_ranks (r : nat) (l : list (btensor G R)) : result bool :=
    match l with
    | [] => UB
    | T :: l' => if b_rank T =? r then b_ranks_loop r T l' else Ok false
    end.
End Block.
