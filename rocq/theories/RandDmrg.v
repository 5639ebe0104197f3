(** Model of [dmrg] without an initial state, sources/dmrg.cpp:119-125, and of the random chains it starts from, sources/MPT.cpp:372-385 and 464-478, for
    dense tensors. Model only. [draw i] stands for the numbers that [torch::rand] gives for site [i]. *)
From Verif Require Import Base Ring Index SpecIndex Dense BTensor Bcast Tensordot Chain Edges Num Truncate BSvd BTrunc MoveOc Eig2 Lanczos SiteUpdate Dmrg DmrgRun.
Set Implicit Arguments.

Section R.
  Context {N : numeric} {W : weights}.
  Notation t := (dense N).
  Variable draw : nat -> list nat -> N.

  (** [x.index({Slice(0, 1), Ellipsis})] and [x.index({Ellipsis, Slice(0, 1)})]; torch throws for tensors without dimensions. *)
  Definition d_first (x : t) : result t := match dsh x with [] => Throw TorchError | n :: s => Ok (mkD (Nat.min n 1 :: s) (dv x)) end.
  Definition d_last (x : t) : result t := match rev (dsh x) with [] => Throw TorchError | n :: s => Ok (mkD (rev (Nat.min n 1 :: s)) (dv x)) end.
  (** sources/MPT.cpp:375-380 *)
  Definition rand_sites (length bond_dim : nat) (phys_dim : nat -> result nat) : result (list t) :=
    rmapM (fun i => do p <- phys_dim i ; Ok (mkD [bond_dim; p; bond_dim] (draw i))) (seq 0 length).
  (** sources/MPT.cpp:372-385 [random_MPS_impl]; for no site at all [out\[0\]] is undefined. *)
  Definition random_MPS_impl (length bond_dim : nat) (phys_dim : nat -> result nat) : result (list t) :=
    do out <- rand_sites length bond_dim phys_dim ;
    do a <- rnth out 0 ; do a' <- d_first a ; let out := upd out 0 a' in
    do b <- rnth out (length - 1) ; do b' <- d_last b ; Ok (upd out (length - 1) b').
  (** sources/MPT.cpp:464-468, 469-473 and 474-478: the three overloads of [random_MPS]. *)
  Definition random_MPS_hamil (bond_dim : nat) (hamil : list t) : result (list t) :=
    random_MPS_impl (length hamil) bond_dim (fun i => do h <- rnth hamil i ; rnth (dsh h) 3).
  Definition random_MPS_same (len bond_dim phys_dim : nat) : result (list t) := random_MPS_impl len bond_dim (fun _ => Ok phys_dim).
  Definition random_MPS_list (bond_dim : nat) (phys_dims : list nat) : result (list t) := random_MPS_impl (length phys_dims) bond_dim (fun i => rnth phys_dims i).

  Variable slack : nat.
  Variables eps e_init crit : N.
  Variable dsvd : dense N -> dense N * dense N * dense N.
  Variable wt : N -> W.
  Variable thr : W.
  Variables mn mx : Z.
  (** sources/dmrg.cpp:119-125 [dmrg(hamiltonian, options, logger)]; the centre of a new chain is 0, include/MPT.h:317. Energy, chain, reported centre. *)
  Definition t_dmrg_random (undef : t) (max_iter : nat) (hs : list t) : option (result (t * list t * Z)) :=
    obind (Some (random_MPS_hamil (Z.to_nat mn) hs)) (fun sites => t_dmrg slack eps e_init crit dsvd wt thr mn mx undef max_iter hs sites 0).
End R.
