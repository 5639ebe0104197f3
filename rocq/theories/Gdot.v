(** Model of sources/tensorgdot.cpp: the generalised contraction [tensorgdot] and its variants that write into an existing
    tensor. Dimension numbers are non-negative; the sizes fit an [int] (the code narrows them from [int64_t]); the
    operands have one floating-point type and do not share storage with the tensor that is written to. *)
From Verif Require Import Base FlatMap Index Ring SpecIndex Dense BTensor BTensorArith Tensordot Chain.
Set Implicit Arguments.

Section Values.
  Context {R : ring}.
  Implicit Types t A B : dense R.

  (** [tensor.size(k)] throws out of range *)
  Definition t_size t (k : nat) : result nat := match nth_error (dsh t) k with Some s => Ok s | None => Throw TorchError end.
  (** [tensor.sum(k, true)]: the summed dimension is kept with size one *)
  Definition d_sumkeep (k : nat) t : dense R :=
    mkD (upd (dsh t) k 1) (fun i => sumf R (fun y => dv t (upd i k y)) (seq 0 (nth k (dsh t) 0))).
  (** [torch::addmm(m, a, b, beta, alpha)] for [m] of the shape of the product: [beta * m + alpha * a b] *)
  Definition t_gaddmm (m a b : dense R) (beta alpha : R) : result (dense R) :=
    do p <- t_mm a b ;
    if leqb (dsh m) (dsh p) then Ok (d_zip (fun x y => radd (rmul beta x) (rmul alpha y)) m p) else Throw TorchError.

  (** sources/tensorgdot.cpp:41-60: the loop over the pairs of contracted dimensions; a dimension facing one of size one
      is summed right away. *)
  Fixpoint sum_broadcast A B (ds : list (nat * nat)) (t1 t2 : dense R) (csize : nat) : result (dense R * dense R * nat) :=
    match ds with
    | [] => Ok (t1, t2, csize)
    | (k1, k2) :: r =>
        do s1 <- t_size A k1 ;
        do s2 <- t_size B k2 ;
        if s2 =? 1 then sum_broadcast A B r (d_sumkeep k1 t1) t2 csize
        else if s1 =? 1 then sum_broadcast A B r t1 (d_sumkeep k2 t2) csize
        else if s1 =? s2 then sum_broadcast A B r t1 t2 (csize * s1)
        else Throw TorchError
    end.

  (** What [compute_shape] leaves in [t1], [t2] and returns. *)
  Record plan := mkPlan { pl_t1 : dense R; pl_t2 : dense R; pl_p1 : list nat; pl_p2 : list nat; pl_sizes : list nat;
                          pl_m : nat; pl_k : nat; pl_n : nat }.

  (** sources/tensorgdot.cpp:34-98 [compute_shape]; [sh] is [add.sizes()]. *)
  Definition compute_shape (sh : list nat) A B (d1 d2 : list nat) : result plan :=
    if negb (length d1 =? length d2) then Throw TorchError
    else
      do (t1, t2, csize) <- sum_broadcast A B (combine d1 d2) A B 1 ;
      if negb (bitset_ok d1 (length (dsh A)) && bitset_ok d2 (length (dsh B))) then Throw TorchError
      else
        let f1 := others (length (dsh A)) d1 in
        let f2 := others (length (dsh B)) d2 in
        do s1 <- rmapM (t_size t1) f1 ;
        do s2 <- rmapM (t_size t2) f2 ;
        if leqb (s1 ++ s2) sh then Ok (mkPlan t1 t2 (f1 ++ d1) (d2 ++ f2) (s1 ++ s2) (prod_list s1) csize (prod_list s2))
        else Throw TorchError.

  (** sources/tensorgdot.cpp:108-110, 126-128, 144-146: [permute] and [reshape] into two matrices *)
  Definition matrices (p : plan) : result (dense R * dense R) :=
    do t1 <- t_perm (pl_p1 p) (pl_t1 p) ;
    do a <- t_reshape [pl_m p; pl_k p] t1 ;
    do t2 <- t_perm (pl_p2 p) (pl_t2 p) ;
    do b <- t_reshape [pl_k p; pl_n p] t2 ;
    Ok (a, b).

  (** sources/tensorgdot.cpp:118-134 [tensorgdot] *)
  Definition tensorgdot (C A B : dense R) (d1 d2 : list nat) (beta alpha : R) : result (dense R) :=
    if negb (length d1 =? length d2) then Throw TorchError
    else
      do p <- compute_shape (dsh C) A B d1 d2 ;
      do (a, b) <- matrices p ;
      do rout <- t_reshape [pl_m p; pl_n p] C ;
      do r <- t_gaddmm rout a b beta alpha ;
      t_reshape (pl_sizes p) r.
End Values.
Arguments plan R : clear implicits.

(** A tensor inside a storage: sizes, strides and the position of its first element. *)
Record strided := mkS { s_sh : list nat; s_str : list nat; s_off : nat }.
Definition addr (v : strided) (i : list nat) : nat := s_off v + sum_list (map2 Nat.mul (s_str v) i).

Section Storage.
  Context {R : ring}.
  Notation mem := (nat -> R).
  Implicit Types A B : dense R.

  (** the values of a tensor in a storage *)
  Definition load (m : mem) (v : strided) : dense R := mkD (s_sh v) (fun i => m (addr v i)).
  (** writing all the elements of a tensor *)
  Definition store (m : mem) (v : strided) (d : dense R) : mem :=
    fun p => match find (fun i => addr v i =? p) (idxs (s_sh v)) with Some i => dv d i | None => m p end.

  (** [v.reshape({n1, n2})] is a view of [v] when there are strides for which it is one, a copy otherwise
      (documentation of [torch.reshape]); [None] stands for the copy. *)
  Definition reshape_view (v : strided) (n1 n2 : nat) : option strided :=
    let at2 := fun i => addr v (decode (s_sh v) (rowmajor [n1; n2] i)) in
    let w := mkS [n1; n2] [at2 [1; 0] - s_off v; at2 [0; 1] - s_off v] (s_off v) in
    if forallb (fun i => addr w i =? at2 i) (idxs [n1; n2]) then Some w else None.

  (** The common end of the functions that write: [rout] is [v.reshape({n1, n2})] and receives the result of [addmm] with
      [c]; the value is the storage afterwards. *)
  Definition write_reshaped (m : mem) (v : strided) (n1 n2 : nat) (r : dense R) : mem :=
    match reshape_view v n1 n2 with Some w => store m w r | None => m end.

  (** sources/tensorgdot.cpp:136-153 [tensorgdot_] with lists of dimensions *)
  Definition tensorgdot_in (m : mem) (out : strided) A B (d1 d2 : list nat) (beta alpha : R) : result mem :=
    do p <- compute_shape (s_sh out) A B d1 d2 ;
    do (a, b) <- matrices p ;
    do rout <- t_reshape [pl_m p; pl_n p] (load m out) ;
    do r <- t_gaddmm rout a b beta alpha ;
    Ok (write_reshaped m out (pl_m p) (pl_n p) r).

  (** sources/tensorgdot.cpp:100-116 [tensorgdot_out]; [C] may be the values of [out] itself. *)
  Definition tensorgdot_out (m : mem) (out : strided) (C A B : dense R) (d1 d2 : list nat) (beta alpha : R) : result mem :=
    do p <- compute_shape (dsh C) A B d1 d2 ;
    do (a, b) <- matrices p ;
    do _ <- t_reshape [pl_m p; pl_n p] (load m out) ;
    do c <- t_reshape [pl_m p; pl_n p] C ;
    do r <- t_gaddmm c a b beta alpha ;
    Ok (write_reshaped m out (pl_m p) (pl_n p) r).

  (** sources/tensorgdot.cpp:155-192 [tensorgdot_] with a number of dimensions. More dimensions than the two tensors have
      together make the length of [rsizes] negative ([std::length_error]); more than one of them has leave the range of
      its sizes. A negative number is not modelled. *)
  Definition tensorgdot_count (m : mem) (out : strided) A B (k : nat) (beta alpha : R) : result mem :=
    let n1 := length (dsh A) in let n2 := length (dsh B) in
    if n1 + n2 <? 2 * k then Throw LogicError
    else if (n1 <? k) || (n2 <? k) then UB
    else
      let f1 := firstn (n1 - k) (dsh A) in
      let f2 := skipn k (dsh B) in
      if negb (leqb (f1 ++ f2) (s_sh out)) then Throw TorchError
      else if negb (leqb (skipn (n1 - k) (dsh A)) (firstn k (dsh B))) then Throw TorchError
      else
        let csize := prod_list (skipn (n1 - k) (dsh A)) in
        do a <- t_reshape [prod_list f1; csize] A ;
        do b <- t_reshape [csize; prod_list f2] B ;
        do rout <- t_reshape [prod_list f1; prod_list f2] (load m out) ;
        do r <- t_gaddmm rout a b beta alpha ;
        Ok (write_reshaped m out (prod_list f1) (prod_list f2) r).
End Storage.
