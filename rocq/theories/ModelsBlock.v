(** Model of the Hamiltonians with conserved quantities: [to_bMPO] and the block versions of [Heisenberg] and [Hubbard]
    (sources/models.cpp:70-172). The final [coalesce] is added in ModelsCoal.v. *)
From Verif Require Import Base Quantity Ring Index SpecIndex Dense BTensor Bcast View Models.
Set Implicit Arguments.

Section ModelsBlock.
  Context {G : abgroup} {R : ring}.
  Notation t := (btensor G R).
  (** [vector_norm(block) > 1e-4] *)
  Variable signif : dense R -> bool.
  (** [torch::allclose], one element: value, reference value *)
  Variable near : R -> R -> bool.

  (** [torch::allclose]: operands are broadcast. *)
  Definition t_allclose (a b : dense R) : result bool :=
    do s <- t_zip false radd a b ;
    Ok (forallb (fun i => near (dv a (bproj (dsh a) i)) (dv b (bproj (dsh b) i))) (idxs (dsh s))).
  (** One site of [to_bMPO]: sources/models.cpp:74-80, 84-85, 87-88 *)
  Definition bsite (shape : t) (V : dense R) : result t :=
    do b <- from_basic shape V signif ;
    do d <- to_dense b ;
    do ok <- t_allclose d V ;
    if ok then Ok b else Throw InvalidArgument.
  (** sources/models.cpp:70-90 [to_bMPO]. For one site the sizes of the views are not those of the tensor: left out ([UB]),
      like the empty chain, for which [front()] is undefined. *)
  Definition to_bMPO (hamil : list (dense R)) (shape : t) : result (list t) :=
    match hamil with
    | front :: (_ :: _) as rest =>
        do s0 <- rnth (sizes shape) 0 ;
        do vl <- basic_create_view shape [Z.of_nat s0 - 1; -1; -1; -1]%Z true ;
        do f <- bsite vl front ;
        do mid <- rmapM (bsite shape) (removelast rest) ;
        do vr <- basic_create_view shape [-1; -1; 0; -1]%Z true ;
        do b <- bsite vr (last rest front) ;
        Ok (f :: mid ++ [b])
    | _ => UB
    end.

  (** lambda [p] (sources/models.cpp:94, 167) *)
  Definition phys_qtt (P : t) (i : nat) : result G := element_conserved_qtt (b_sbd P) (b_ss P) (b_cv P) 0 i.
  (** sources/models.cpp:97, 169; [conj] also conjugates the (absent) blocks *)
  Definition local_shape (left P : t) : result t := shape_from_list [left; P; conj left; conj P].

  (** sources/models.cpp:92-100 [Heisenberg(J, lenght, phys_shape)], before [coalesce]. *)
  Definition b_Heisenberg (quarter : R -> R) (J : R) (n : nat) (P : t) : result (list t) :=
    do p0 <- phys_qtt P 0 ;
    do p1 <- phys_qtt P 1 ;
    let e := qe G in
    do shape <- local_shape (@of_struct G R [[(1, e); (1, p0); (1, p1); (1, e); (1, e)]] p0) P ;
    do h <- Heisenberg quarter J n ;
    to_bMPO h shape.

  (** sources/models.cpp:164-172 [Hubbard(U, mu, lenght, Phys_shape)], before [coalesce]. *)
  Definition b_Hubbard (U mu : R) (n : nat) (P : t) : result (list t) :=
    do p0 <- phys_qtt P 0 ;
    do p1 <- phys_qtt P 1 ;
    do p2 <- phys_qtt P 2 ;
    do shape <- local_shape (@of_struct G R [[(1, p0); (1, p1); (1, p2); (1, qinv G p1); (1, qinv G p2); (1, p0)]] p0) P ;
    do h <- Hubbard U mu n ;
    to_bMPO h shape.
End ModelsBlock.
