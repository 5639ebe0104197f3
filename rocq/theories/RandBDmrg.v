(** Model of [dmrg] without an initial state, sources/dmrg.cpp:109-118, and of the overloads of [random_bMPS] it starts from, sources/MPT.cpp:479-494 and
    501-533, for block tensors. Model only. The random numbers come from arbitrary functions, see RandChain.v. *)
From Verif Require Import Base Quantity FlatMap Ring Index SpecIndex Dense BTensor BTensorArith Bcast Tensordot View Chain Edges Num Truncate BSvd BTrunc MoveOc Eig2 Lanczos BLanczos SiteUpdate BSiteUpdate Dmrg DmrgRun BDmrgRun Rand RandChain.
Set Implicit Arguments.

Section Passes.
  Context {G : abgroup}.
  (** [std::lexicographical_compare] and [std::equal] on ranges of quantities *)
  Fixpoint q_lex (a b : list G) : bool :=
    match a, b with
    | _, [] => false
    | [], _ :: _ => true
    | x :: a', y :: b' => if qltb G x y then true else if qltb G y x then false else q_lex a' b'
    end.
  Fixpoint q_equal (a b : list G) : bool :=
    match a, b with
    | [], [] => true
    | x :: a', y :: b' => qeqb G x y && q_equal a' b'
    | _, _ => false
    end.
  (** [std::sort] with [std::lexicographical_compare]: ranges that are equivalent are equal *)
  Fixpoint r_insert (a : list G) (l : list (list G)) : list (list G) :=
    match l with [] => [a] | b :: r => if q_lex b a then b :: r_insert a r else a :: l end.
  Definition r_sort (l : list (list G)) : list (list G) := fold_right r_insert [] l.
  (** sources/MPT.cpp:520-529 *)
  Fixpoint changes (l : list (list G)) : nat :=
    match l with
    | a :: ((b :: _) as r) => (if q_equal a b then 0 else 1) + changes r
    | _ => 0
    end.
  (** sources/MPT.cpp:506-531: for no site [X.cend() - 1] is computed before the test that throws *)
  Definition n_pass (specs : list (list G)) : result nat :=
    match specs with [] => UB | _ => Ok (1 + changes (r_sort specs)) end.
End Passes.

Section R.
  Context {G : abgroup} {N : numeric} {W : weights}.
  Notation bt := (btensor G N).
  (** [src]: the numbers that choose configurations; [rnd]: the blocks that [torch::rand] gives for each site *)
  Variable src : nat -> nat.
  Variable rnd : nat -> list nat -> list nat -> dense N.

  (** sources/MPT.cpp:489 *)
  Definition phys_of (h : bt) : result bt :=
    do s <- shape_from h [0; 0; 0; -1]%Z ; do s <- shape_from_list [s] ; do s <- set_selection_rule_ s (qe G) ; Ok (inverse_cvals s).
  (** sources/MPT.cpp:501-533; quantities of the first dimension of each tensor. Simplification: the element types of the options are not modelled. *)
  Definition random_bMPS_list (bond_dim : nat) (phys : list bt) (total : G) : result (list bt) :=
    do specs <- rmapM (fun P => if b_rank P =? 0 then UB else Ok (prange (b_sbd P) (b_cv P) 0)) phys ;
    do n <- n_pass specs ;
    random_bMPS (ndiv N) (n_sqrt N) src rnd bond_dim phys total n.
  (** sources/MPT.cpp:479-494 (and 540-545, which forwards to it) *)
  Definition random_bMPS_hamil (bond_dim : nat) (hamil : list bt) (total : G) : result (list bt) :=
    do phys <- rmapM phys_of hamil ; random_bMPS_list bond_dim phys total.

  Variable last_first : bool.
  Variable imax : nat.
  Variables eps e_init crit : N.
  Variable gtb : N -> N -> bool.
  Variable lower : N -> N.
  Variable wt : N -> W.
  Variable dsvd : dense N -> dense N * dense N * dense N.
  Variable thr : W.
  Variables mn mx : Z.
  (** sources/dmrg.cpp:109-118 [dmrg(hamiltonian, qnum, options, logger)]; the centre of a new chain is 0, include/MPT.h:530. Energy, chain, reported centre. *)
  Definition b_dmrg_random (undef : bt) (max_iter : nat) (hs : list bt) (total : G) : option (result (bt * list bt * Z)) :=
    obind (Some (random_bMPS_hamil (Z.to_nat mn) hs total)) (fun sites => b_dmrg last_first imax eps e_init crit gtb lower wt dsvd thr mn mx undef max_iter hs sites 0).
End R.
