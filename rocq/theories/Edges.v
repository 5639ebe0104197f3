(** Model of the functions that build the edge tensors of chains: shapes of dense tensors, [edge_shape_prep], [trivial_edge],
    the overloads of [contract] without edges, and [generate_env]. *)
From Verif Require Import Base Quantity FlatMap Ring Index SpecIndex Dense BTensor BTensorArith Tensordot View Chain.
Set Implicit Arguments.

(** sources/btensor.cpp:2286-2306 [shape_from(torch_shape, inds)]: an element of the shape is written for every entry of
    [inds], the output position only advances for -1. [slack] is the number of elements that can be written past the end of
    the output vector without consequence: 0 in the language; allocators round small requests up. *)
Fixpoint ts_loop (slack rank pos : nat) (sh : list nat) (inds : list Z) (out : list nat) : result (list nat) :=
  match inds with
  | [] => Ok out
  | a :: inds' =>
      match sh with
      | [] => UB
      | s :: sh' =>
          if pos <? rank + slack then ts_loop slack rank (if (a =? -1)%Z then S pos else pos) sh' inds'
              (if pos <? rank then upd out pos s else out)
          else UB
      end
  end.
Definition ts_shape_from (slack : nat) (sh : list nat) (inds : list Z) : result (list nat) :=
  let rank := length (filter (fun a => (a =? -1)%Z) inds) in
  if rank =? 0 then Ok [] else ts_loop slack rank 0 sh inds (repeat 0 rank).
(** sources/btensor.cpp:2267-2285 [shape_from({shapes})] *)
Definition ts_shape_list (l : list (list nat)) : list nat := concat l.

(** [v.front()], [v.back()] *)
Definition front {A} (l : list A) : result A := rnth l 0.
Definition back {A} (l : list A) : result A := match l with [] => UB | _ => rnth l (length l - 1) end.

Section DenseEdges.
  Context {R : ring}.
  Variable slack : nat.
  Notation t := (dense R).
  (** include/blockTensor/btensor.h:1346-1355 *)
  Definition ts_eye (sh : list nat) : result t :=
    match sh with [n; m] => Ok (d_eye n m) | _ => Throw InvalidArgument end.
  Definition ts_ones (sh : list nat) : t := d_full sh ro.
  (** sources/dmrg.cpp:335-345 [edge_shape_prep] for [torch_shape] *)
  Definition d_edge_shape_prep (A : t) (d : nat) : result (list nat) :=
    do _ <- rnth (dsh A) d ;
    do s <- ts_shape_from slack (dsh A) (upd (repeat 0%Z (length (dsh A))) d (-1)%Z) ;
    do s' <- ts_shape_from slack s [0%Z] ;
    Ok (ts_shape_list [s; s']).
  (** sources/MPT.cpp:268-273 [contract(a, b)] *)
  Definition d_identity_edge (A B : t) (inds : list Z) : result t :=
    do s <- ts_shape_from slack (dsh A) inds ;
    do s' <- ts_shape_from slack (dsh B) inds ;
    ts_eye (ts_shape_list [s; s']).
  Definition d_contract_default (a b : list t) : result t :=
    do a0 <- front a ; do b0 <- front b ;
    do l <- d_identity_edge a0 b0 [-1; 0; 0]%Z ;
    do a1 <- back a ; do b1 <- back b ;
    do e <- d_identity_edge a1 b1 [0; 0; -1]%Z ;
    contract t_tdot t_conj a b l e.
  (** sources/MPT.cpp:246-256 [contract(a, b, obs)] *)
  Definition d_contract_obs_default (a b h : list t) : result t :=
    do a0 <- front a ; do b0 <- front b ;
    do l <- d_identity_edge a0 b0 [-1; 0; 0]%Z ;
    do a1 <- back a ; do b1 <- back b ;
    do e <- d_identity_edge a1 b1 [0; 0; -1]%Z ;
    do h0 <- front h ;
    do sl <- ts_shape_from slack (dsh h0) [-1; 0; 0; 0]%Z ;
    do l' <- t_tdot l (ts_ones sl) [] [] ;
    do l'' <- t_perm [0; 2; 1] l' ;
    do h1 <- back h ;
    do se <- ts_shape_from slack (dsh h1) [0; 0; -1; 0]%Z ;
    do e' <- t_tdot e (ts_ones se) [] [] ;
    do e'' <- t_perm [0; 2; 1] e' ;
    contract_obs t_tdot t_conj a b h l'' e''.
  (** sources/dmrg.cpp:370-391: the two edges of [generate_env] *)
  Definition d_env_edge (A H : t) (ds dh : nat) : result t :=
    do s <- d_edge_shape_prep A ds ;
    do o <- d_edge_shape_prep H dh ;
    Ok (ts_ones (ts_shape_list [s; o; s])).
End DenseEdges.

Section BlockEdges.
  Context {G : abgroup} {R : ring}.
  Variable imax : nat.
  (** Order in which the arguments of a call are evaluated, which the language leaves open: [true] when the last argument
      comes first (gcc), [false] when the first one does (clang). *)
  Variable last_first : bool.
  Notation t := (btensor G R).
  (** sources/dmrg.cpp:335-345 [edge_shape_prep]: the first argument of the last call inverts [Shape] in place. The neutral
      rule is set without a check; the shape has no block. *)
  Definition edge_shape_prep (A : t) (d : nat) : result t :=
    if b_rank A <=? d then UB else
    do s <- shape_from A (upd (repeat 0%Z (b_rank A)) d (-1)%Z) ;
    let s := with_rule s (qe G) in
    do s' <- shape_from (if last_first then s else inverse_cvals s) [0%Z] ;
    shape_from_list [inverse_cvals s; s'].
  (** sources/MPT.cpp:285-292 [contract(a, b)] *)
  Definition identity_edge (A B : t) (dims : list Z) : result t :=
    do s <- shape_from A dims ;
    do s' <- shape_from B dims ;
    do sh <- shape_from_list [inverse_cvals s; s'] ;
    eye_like sh.
  Definition b_contract_default (a b : list t) : result t :=
    do a0 <- front a ; do b0 <- front b ;
    do l <- identity_edge a0 b0 [-1; 0; 0]%Z ;
    do a1 <- back a ; do b1 <- back b ;
    do e <- identity_edge a1 b1 [0; 0; -1]%Z ;
    contract (tensordot imax) (@conj G R) a b l e.
  (** sources/MPT.cpp:222-233 [contract(a, b, obs)] *)
  Definition b_contract_obs_default (a b h : list t) : result t :=
    do a0 <- front a ; do b0 <- front b ;
    do l <- identity_edge a0 b0 [-1; 0; 0]%Z ;
    do a1 <- back a ; do b1 <- back b ;
    do e <- identity_edge a1 b1 [0; 0; -1]%Z ;
    do h0 <- front h ;
    do sl <- edge_shape_prep h0 0 ;
    do ol <- full_like sl ro ;
    do l' <- tensordot imax l ol [] [] ;
    do l'' <- b_perm [0; 2; 1] l' ;
    do h1 <- back h ;
    do se <- edge_shape_prep h1 2 ;
    do oe <- full_like se ro ;
    do e' <- tensordot imax e oe [] [] ;
    do e'' <- b_perm [0; 2; 1] e' ;
    contract_obs (tensordot imax) (@conj G R) a b h l'' e''.
  (** sources/dmrg.cpp:370-391: the two edges of [generate_env] *)
  Definition b_env_edge (A H : t) (ds dh : nat) : result t :=
    do s <- edge_shape_prep A ds ;
    do o <- edge_shape_prep H dh ;
    do sh <- shape_from_list [s; o; inverse_cvals s] ;
    full_like sh ro.
End BlockEdges.
