(** Model of the update of two sites with block tensors, sources/dmrg.cpp:543-653. Model only. The algorithm is that of
    [Lanczos]; here are the operations of block tensors it calls. *)
From Verif Require Import Base Quantity FlatMap Ring Index SpecIndex Dense BTensor BTensorArith Bcast Tensordot Chain Num Eig2 Lanczos.
Set Implicit Arguments.

Section Blocks.
  Context {G : abgroup} {N : numeric}.
  Variable imax : nat.
  (** 1e-15 *)
  Variable eps : N.
  Notation bt := (btensor G N).

  (** Block tensors without dimensions, the only ones [eig2x2Mat] gets here: selection rule and element, [None] when the
      block is not stored. Elements may be infinite or undefined. *)
  Definition xt : Type := G * option (flt N).
  Definition x_of (T : bt) : result xt :=
    match b_blocks T with
    | [] => Ok (b_rule T, None)
    | [(_, t)] => do x <- d_item t ; Ok (b_rule T, Some (Fin x))
    | _ => UB
    end.
  (** Infinite or undefined elements have no place in [btensor]: [UB] stands for a result that is not modelled. *)
  Definition of_x (x : xt) : result bt :=
    match snd x with
    | None => Ok (@mkB G N (fst x) 0 [] [] [] [])
    | Some (Fin v) => Ok (@mkB G N (fst x) 0 [] [] [] [([], mkD [] (fun _ => v))])
    | Some _ => UB
    end.
  (** sources/btensor.cpp:2666-2683 [add] with coefficient 1 or -1 ([minus]) given by the function [f]: without a block in the
      second tensor the one of the first is multiplied by the coefficient (see [bt_add]). *)
  Definition x_add (f : flt N -> flt N) (a b : xt) : result xt :=
    if negb (qeqb G (fst a) (fst b)) then Throw InvalidArgument
    else Ok (fst a, match snd a, snd b with
                    | Some x, Some y => Some (f_add x (f y))
                    | Some x, None => Some (f x)
                    | None, Some y => Some (f y)
                    | None, None => None
                    end).
  Definition plus (a b : xt) := x_add (fun x => x) a b.
  Definition minus (a b : xt) := x_add f_opp a b.
  (** sources/btensor.cpp:1630-1691 [broadcast_operation] *)
  Definition x_zip {A} (f : flt N -> flt N -> A) (a b : xt) : G * option A :=
    (qop G (fst a) (fst b), match snd a, snd b with Some x, Some y => Some (f x y) | _, _ => None end).
  Definition x_map (f : flt N -> flt N) (a : xt) : xt := (fst a, option_map f (snd a)).
  (** sources/btensor.cpp:2156 [conj] *)
  Definition x_conj (a : xt) : xt := (qinv G (fst a), option_map (fun x => match x with Fin x => Fin (rconj x) | _ => x end) (snd a)).
  (** sources/btensor.cpp:2362-2367, 2375-2380 [zeros_like], [ones_like]: every allowed block is stored. *)
  Definition x_like (a : xt) (v : N) : xt := (fst a, if qeqb G (fst a) (qe G) then Some (Fin v) else None).
  (** sources/btensor.cpp:322-331 [item] *)
  Definition x_item (a : xt) : flt N := match snd a with Some x => x | None => Fin rz end.
  Definition x_true (a : G * option bool) : bool := match snd a with Some x => x | None => false end.
  (** sources/btensor.cpp:3089-3115 [isnan], [any]: without blocks the result is an undefined torch tensor, whose [item()]
      throws. *)
  Definition x_check (a : xt) : result unit :=
    match snd a with None => Throw TorchError | Some x => if is_nan x then Throw LogicError else Ok tt end.

  (** sources/dmrg.cpp:543-579 [eig2x2Mat] *)
  Definition x_eig (a0 a1 b : xt) : result (xt * xt * xt) :=
    do d <- minus a0 a1 ;
    do c <- plus (x_map (fun x => f_mul x x) d) (x_map (f_mul (Fin (rmul (two N) (two N)))) (x_zip f_mul (x_conj b) b)) ;
    let crit := x_map f_sqrt c in
    do s <- plus a0 a1 ;
    do e <- minus s crit ;
    let E0 := x_map (fun x => f_div x (Fin (two N))) e in
    do delt <- minus E0 a1 ;
    let o_coeff := x_map f_sqrt (x_zip f_div delt (x_map f_opp crit)) in
    do oe <- plus o_coeff E0 ;
    let zero_o := x_true (x_zip f_eqb oe E0) || is_nan (x_item o_coeff) in
    let n_coeff := x_zip f_div (x_zip f_mul b o_coeff) delt in
    let n_coeff := if zero_o then x_like n_coeff ro else n_coeff in
    let o_coeff := if zero_o then x_like o_coeff rz else o_coeff in
    do _ <- x_check o_coeff ;
    do _ <- x_check n_coeff ;
    Ok (E0, o_coeff, n_coeff).
  Definition b_eig (a0 a1 b : bt) : result (bt * bt * bt) :=
    do x0 <- x_of a0 ; do x1 <- x_of a1 ; do y <- x_of b ;
    do r <- x_eig x0 x1 y ;
    let '(E, o, n) := r in
    do E <- of_x E ; do o <- of_x o ; do n <- of_x n ; Ok (E, o, n).
  (** sources/dmrg.cpp:605-609: [ge(b.abs(), 1e-15).item()]; sources/btensor.cpp:919-926 [ge] works block by block. *)
  Definition b_large (b : bt) : result bool :=
    do x <- item (bt_elementwise (fun x => if n_leb N eps (nabs x) then ro else rz) b) ; Ok (negb (reqb x rz)).
  (** include/blockTensor/btensor.h:473 [operator-=] is [add_] with coefficient -1; btensor.h:1379, 1382, 532 [operator+],
      [operator*], [operator/=]. *)
  Definition b_plus (a b : bt) : result bt := bt_add a b ro.
  Definition b_minus_ (a b : bt) : result bt := bt_add a b (ropp ro).
  Definition b_lanczos : bt -> bt -> bt -> bt -> result (bt * bt * bt * bt) :=
    one_step_lanczos (tensordot imax) (@conj G N) b_mul b_minus_ (b_div_ (ndiv N)) (bt_elementwise (n_sqrt N)) b_large.
  Definition b_update : bt -> bt -> bt -> bt -> result (bt * bt) :=
    two_sites_update (tensordot imax) (@conj G N) b_mul b_plus b_minus_ (b_div_ (ndiv N)) (bt_elementwise (n_sqrt N)) b_large b_eig.
End Blocks.
