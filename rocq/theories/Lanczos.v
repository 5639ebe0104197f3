(** Model of the update of two sites, sources/dmrg.cpp:592-653. Model only. The C++ functions are templates used with torch
    tensors and with block tensors; here they are functions of the tensor operations they call. *)
From Verif Require Import Base Ring Index SpecIndex Dense BTensor Bcast Tensordot Chain Num Eig2.
Set Implicit Arguments.

Section Alg.
  Variable T : Type.
  Variable tdot : T -> T -> list nat -> list nat -> result T.
  Variable tconj : T -> T.
  (** [a * b], [a + b]; [a -= b], [a /= b]: the value left in [a]. *)
  Variables mul add sub_ div_ : T -> T -> result T.
  Variable tsqrt : T -> T.
  (** [ge(b.abs(), 1e-15).item()] *)
  Variable large : T -> result bool.
  Variable eig : T -> T -> T -> result (T * T * T).
  Let all4 : list nat := [0; 1; 2; 3].

  (** sources/dmrg.cpp:592-625 [one_step_lanczos]: the new direction, the two diagonal elements and the coupling. *)
  Definition one_step_lanczos (state hamil l r : T) : result (T * T * T * T) :=
    do psi_ip <- hamil2site_times_state tdot state hamil l r ;
    do a0 <- tdot psi_ip (tconj state) all4 all4 ;
    do sa <- mul state a0 ;
    do psi_ip <- sub_ psi_ip sa ;
    do bb <- tdot psi_ip (tconj psi_ip) all4 all4 ;
    let b := tsqrt bb in
    do non_singular <- large b ;
    do psi_ip <- (if non_singular then div_ psi_ip b else Ok psi_ip) ;
    do hp <- hamil2site_times_state tdot psi_ip hamil l r ;
    do a1 <- tdot (tconj psi_ip) hp all4 all4 ;
    Ok (psi_ip, a0, a1, b).
  (** sources/dmrg.cpp:630-653 [two_sites_update]: the energy and the state. *)
  Definition two_sites_update (state hamil l r : T) : result (T * T) :=
    do x <- one_step_lanczos state hamil l r ;
    let '(psi_ip, a0, a1, b) := x in
    do y <- eig a0 a1 b ;
    let '(E, o_coeff, n_coeff) := y in
    do os <- mul o_coeff state ;
    do np <- mul n_coeff psi_ip ;
    do psi_update <- add os np ;
    Ok (E, psi_update).
End Alg.

(** Dense tensors over exact real or complex numbers. [eps] stands for 1e-15. *)
Section Torch.
  Context {N : numeric}.
  Variable eps : N.
  Notation t := (dense N).
  (** [tensor.item()] *)
  Definition t_item (a : t) : result N := if prod_list (dsh a) =? 1 then Ok (dv a (map (fun _ => 0) (dsh a))) else Throw TorchError.
  Definition nabs (x : N) : N := n_sqrt N (rmul (rconj x) x).
  Definition t_large (b : t) : result bool := do x <- t_item (d_map nabs b) ; Ok (n_leb N eps x).
  (** sources/dmrg.cpp:543-590 [eig2x2Mat] on tensors of one element and no dimension, the only ones it gets here. Infinite
      coefficients have no place in these tensors: [UB] stands for a result that is not modelled. *)
  Definition t_eig (a0 a1 b : t) : result (t * t * t) :=
    do x0 <- t_item a0 ; do x1 <- t_item a1 ; do y <- t_item b ;
    do r <- eig2x2 x0 x1 y ;
    match r with
    | (Fin E, Fin o, Fin n) => Ok (mkD [] (fun _ => E), mkD [] (fun _ => o), mkD [] (fun _ => n))
    | _ => UB
    end.
  Definition t_lanczos : t -> t -> t -> t -> result (t * t * t * t) :=
    one_step_lanczos t_tdot t_conj (t_zip false rmul) (t_zip true rsub) (t_zip true (ndiv N)) (d_map (n_sqrt N)) t_large.
  Definition t_update : t -> t -> t -> t -> result (t * t) :=
    two_sites_update t_tdot t_conj (t_zip false rmul) (t_zip false radd) (t_zip true rsub) (t_zip true (ndiv N)) (d_map (n_sqrt N)) t_large t_eig.
End Torch.
