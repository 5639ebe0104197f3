(** Model of block tensor addition, scalar operations and dimension permutation. *)
From Verif Require Import Base Quantity FlatMap Ring Index SpecIndex Dense BTensor.
Set Implicit Arguments.

Section Arith.
  Context {G : abgroup} {R : ring}.
  Implicit Types T : btensor G R.

  (** [a.add_(b, alpha)] and [x.mul(alpha)] on dense blocks; the blocks of tensors that pass the check and are valid have
      equal shapes (torch broadcasting of unequal shapes is not modelled). *)
  Definition d_axpy (alpha : R) (a b : dense R) : dense R := d_zip (fun x y => radd x (rmul alpha y)) a b.
  Definition d_scale (alpha : R) (a : dense R) : dense R := d_map (fun x => rmul x alpha) a.

  (** sources/btensor.cpp:2666-2683 [add(const btensor&, alpha)] and 2717-2727 [add_]: the first works on a copy of
      [*this], the second on [*this]; value-wise they are the same function. *)
  Definition bt_add (a b : btensor G R) (alpha : R) : result (btensor G R) :=
    do _ <- add_tensor_check a b ;
    do l <- fm_merge lexb (d_axpy alpha) (d_scale alpha) (b_blocks a) (b_blocks b) ;
    Ok (with_blocks a l).
  (** sources/btensor.cpp:2688-2711 [add(btensor&&, alpha)]: same values, then the options are read from the first block
      unconditionally. *)
  Definition bt_add_rvalue (a b : btensor G R) (alpha : R) : result (btensor G R) :=
    do out <- bt_add a b alpha ;
    match b_blocks out with [] => UB | _ => Ok out end.
  (** include/blockTensor/btensor.h:613-616, 472-473, 1381 [sub], [sub_], [operator-=], [operator-] *)
  Definition bt_sub (a b : btensor G R) (alpha : R) : result (btensor G R) := bt_add a b (ropp alpha).
  (** sources/btensor.cpp:1602-1609 [add(Scalar)], [add_(Scalar)]; [Scalar_mul] is the product of scalars. *)
  Definition bt_add_scalar T (c alpha : R) : result (btensor G R) :=
    do f <- full_like T (rmul c alpha) ; bt_add f T ro.
  Definition bt_add_scalar_ T (c alpha : R) : result (btensor G R) :=
    do f <- full_like T (rmul c alpha) ; bt_add T f ro.
  (** include/blockTensor/btensor.h [mul(Scalar)], [operator-]: every block multiplied. *)
  Definition bt_mul_scalar T (c : R) : btensor G R := map_blocks (d_scale c) T.
  (** sources/btensor.cpp:1511-1562 [sqrt], [abs], [pow(Scalar)]: the element function applied to every block. *)
  Definition bt_elementwise (f : R -> R) T : btensor G R := map_blocks (d_map f) T.

  (** sources/btensor.cpp:1767-1769: [rank*(x<0)+x] *)
  Definition pos_dim (rank : nat) (x : Z) : Z := if (x <? 0)%Z then (Z.of_nat rank + x)%Z else x.
  (** Access by a possibly bad dimension number: undefined behaviour out of range. *)
  Definition zdim (rank : nat) (x : Z) : result nat :=
    let y := pos_dim rank x in
    if ((0 <=? y) && (y <? Z.of_nat rank))%Z then Ok (Z.to_nat y) else UB.

  (** [torch::Tensor::permute]: throws unless a permutation of the dimensions. *)
  Definition is_permb (p : list nat) (n : nat) : bool :=
    (length p =? n) && forallb (fun k => existsb (Nat.eqb k) p) (seq 0 n).
  Definition t_permute (p : list nat) (t : dense R) : result (dense R) :=
    if is_permb p (length (dsh t)) then Ok (d_permute p t) else Throw TorchError.

  (** sources/btensor.cpp:1754-1798 [permute]; the quantity vector is permuted by
      include/Conserved/Composite/quantity_vector_impl.h:407-424, section by section as the sizes are. *)
  Definition permute T (inp : list Z) : result (btensor G R) :=
    if negb (length inp =? b_rank T) then UB
    else
      do p <- rmapM (zdim (b_rank T)) inp ;
      do blocks <- rmapM (fun '(idx, t) =>
          do idx' <- rmapM (rnth idx) p ;
          do t' <- t_permute p t ;
          Ok (idx', t')) (b_blocks T) ;
      do sbd <- rmapM (rnth (b_sbd T)) p ;
      make (@mkB G R (b_rule T) (b_rank T) sbd
              (flat_map (fun d => prange (b_sbd T) (b_ss T) d) p)
              (flat_map (fun d => prange (b_sbd T) (b_cv T) d) p) (fm_sort lexb blocks)).

  (** sources/btensor.cpp:1948-1959 [transpose] *)
  Definition transpose T (d0 d1 : Z) : result (btensor G R) :=
    do i <- zdim (b_rank T) d0 ;
    do j <- zdim (b_rank T) d1 ;
    permute T (map Z.of_nat (upd (upd (seq 0 (b_rank T)) i j) j i)).
End Arith.
