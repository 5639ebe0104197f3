(** Model of the contraction of chains of tensors: environments, expectation values, two-site Hamiltonians. The C++ functions
    are templates or pairs of overloads with the same body for torch tensors and for block tensors; here they are functions
    of the tensor operations they call. *)
From Verif Require Import Base Quantity FlatMap Ring Index SpecIndex Dense BTensor BTensorArith Tensordot SpecTensordot View.
Set Implicit Arguments.

Section Alg.
  Variable T : Type.
  Variable tdot : T -> T -> list nat -> list nat -> result T.
  Variable tconj : T -> T.
  Variable tperm : list nat -> T -> result T.

  (** One turn of the loop of [contract] with an observable, sources/MPT.cpp:214-219 and 236-243. *)
  Definition left_step (h a b l : T) : result T :=
    do x <- tdot l a [0] [0] ;
    do y <- tdot x h [0; 2] [0; 3] ;
    tdot y (tconj b) [0; 2] [0; 1].
  (** sources/dmrg.cpp:424-467 [compute_left_env] *)
  Definition compute_left_env (h a l : T) : result T := left_step h a a l.
  (** sources/dmrg.cpp:468-501 [compute_right_env] *)
  Definition compute_right_env (h a r : T) : result T :=
    do x <- tdot r a [0] [2] ;
    do y <- tdot x h [0; 3] [2; 3] ;
    tdot y (tconj a) [3; 0] [1; 2].
  (** sources/MPT.cpp:210-221, 234-245 [contract(a, b, obs, left_edge, right_edge)]; the [assert] on the lengths is off in
      release builds, and a missing site is an out-of-range access. *)
  Fixpoint contract_obs_loop (a b h : list T) (l : T) : result T :=
    match a with
    | [] => Ok l
    | x :: a' =>
        match h, b with
        | o :: h', y :: b' => do l' <- left_step o x y l ; contract_obs_loop a' b' h' l'
        | _, _ => UB
        end
    end.
  Definition contract_obs (a b h : list T) (l r : T) : result T :=
    do e <- contract_obs_loop a b h l ; tdot e r [0; 1; 2] [0; 1; 2].
  (** sources/MPT.cpp:258-267, 275-284 [contract(a, b, left_edge, right_edge)] *)
  Definition overlap_step (a b l : T) : result T :=
    do x <- tdot l a [0] [0] ;
    tdot x (tconj b) [0; 1] [0; 1].
  Fixpoint contract_loop (a b : list T) (l : T) : result T :=
    match a with
    | [] => Ok l
    | x :: a' => match b with y :: b' => do l' <- overlap_step x y l ; contract_loop a' b' l' | [] => UB end
    end.
  Definition contract (a b : list T) (l r : T) : result T := do e <- contract_loop a b l ; tdot e r [0; 1] [0; 1].

  (** Environments of a list of sites: the vector filled by sources/dmrg.cpp:392-409 holds these values. *)
  Fixpoint left_envs (h a : list T) (l : T) : result T :=
    match h, a with
    | [], [] => Ok l
    | o :: h', x :: a' => do l' <- compute_left_env o x l ; left_envs h' a' l'
    | _, _ => UB
    end.
  Fixpoint right_envs (h a : list T) (r : T) : result T :=
    match h, a with
    | [], [] => Ok r
    | o :: h', x :: a' => do r' <- right_envs h' a' r ; compute_right_env o x r'
    | _, _ => UB
    end.

  (** sources/dmrg.cpp:503-518, one element of [compute_2sitesHamil] *)
  Definition two_sites_hamil (h h' : T) : result T :=
    do x <- tdot h h' [2] [0] ; tperm [0; 1; 3; 4; 2; 5] x.
  (** sources/dmrg.cpp:503-518 [compute_2sitesHamil]: [l - 1] wraps to the largest size for an empty chain, which no vector
      can have ([std::length_error], a logic error). *)
  Fixpoint two_sites_loop (h : T) (l : list T) : result (list T) :=
    match l with
    | [] => Ok []
    | h' :: l' => do x <- two_sites_hamil h h' ; do r <- two_sites_loop h' l' ; Ok (x :: r)
    end.
  Definition compute_2sites_hamil (l : list T) : result (list T) :=
    match l with [] => Throw LogicError | h :: l' => two_sites_loop h l' end.
  (** sources/dmrg.cpp:182 [local_state = tensordot(state\[oc\], state\[oc + 1\], {2}, {0})] *)
  Definition merge (a a' : T) : result T := tdot a a' [2] [0].
  (** sources/dmrg.cpp:520-541 [hamil2site_times_state] *)
  Definition hamil2site_times_state (s h l r : T) : result T :=
    do x <- tdot l s [0] [0] ;
    do y <- tdot x h [0; 2; 3] [0; 4; 5] ;
    tdot y r [1; 4] [0; 1].
End Alg.

(** Dense tensors. *)
Section Torch.
  Context {R : ring}.
  (** [torch::tensordot]: the dimensions must be distinct and in range; a contracted dimension of size one is broadcast
      against the other one; other different sizes throw. *)
  Definition bsize (s1 s2 : nat) : nat := if s1 =? 1 then s2 else s1.
  Definition clamp (s c : nat) : nat := if s =? 1 then 0 else c.
  Definition t_tdot (A B : dense R) (d1 d2 : list nat) : result (dense R) :=
    let n1 := length (dsh A) in let n2 := length (dsh B) in
    let s1 := gather 0 d1 (dsh A) in let s2 := gather 0 d2 (dsh B) in
    if negb (length d1 =? length d2) || negb (bitset_ok d1 n1) || negb (bitset_ok d2 n2) then Throw TorchError
    else if negb (forallb (fun '(x, y) => (x =? y) || (x =? 1) || (y =? 1)) (combine s1 s2)) then Throw TorchError
    else Ok (mkD (gather 0 (free n1 d1) (dsh A) ++ gather 0 (free n2 d2) (dsh B))
      (fun i => sumf R (fun c => rmul (dv A (coords n1 d1 (map2 clamp s1 c) (firstn (length (free n1 d1)) i)))
                                      (dv B (coords n2 d2 (map2 clamp s2 c) (skipn (length (free n1 d1)) i)))) (idxs (map2 bsize s1 s2)))).
  (** [tensor.conj()] *)
  Definition t_conj (A : dense R) : dense R := d_map rconj A.
  (** [tensor.permute(p)] for a list of non-negative dimensions *)
  Definition t_perm (p : list nat) (A : dense R) : result (dense R) :=
    if (length p =? length (dsh A)) && bitset_ok p (length (dsh A)) then Ok (d_permute p A) else Throw TorchError.
End Torch.

(** Block tensors. *)
Definition b_perm {G R} (p : list nat) (A : btensor G R) : result (btensor G R) := permute A (map Z.of_nat p).
