(** Model of the eigenvalue problem of two vectors, sources/dmrg.cpp:543-590. Model only. One element tensors are their element. *)
From Verif Require Import Base Ring BTensor Num.
Set Implicit Arguments.

Section Eig.
  Context {N : numeric}.
  Local Open Scope R_scope.
  (** Results of floating point operations without rounding; infinities without their sign. *)
  Inductive flt : Type := Fin (x : N) | Inf | Nan.
  Definition f_add (x y : flt) : flt := match x, y with Fin x, Fin y => Fin (x + y) | Inf, Fin _ | Fin _, Inf => Inf | _, _ => Nan end.
  Definition f_mul (x y : flt) : flt :=
    match x, y with
    | Fin x, Fin y => Fin (x * y)
    | Inf, Fin y | Fin y, Inf => if reqb y rz then Nan else Inf
    | Inf, Inf => Inf
    | _, _ => Nan
    end.
  Definition f_div (x y : flt) : flt :=
    match x, y with
    | Fin x, Fin y => if reqb y rz then (if reqb x rz then Nan else Inf) else Fin (ndiv N x y)
    | Inf, Fin _ => Inf
    | Fin _, Inf => Fin rz
    | _, _ => Nan
    end.
  (** A negative number has no real root. *)
  Definition f_sqrt (x : flt) : flt := match x with Fin x => if n_leb N rz x then Fin (n_sqrt N x) else Nan | _ => x end.
  Definition f_opp (x : flt) : flt := match x with Fin x => Fin (- x) | _ => x end.
  Definition f_eqb (x y : flt) : bool := match x, y with Fin x, Fin y => reqb x y | Inf, Inf => true | _, _ => false end.
  Definition is_nan (x : flt) : bool := match x with Nan => true | _ => false end.

  (** sources/dmrg.cpp:543-579 [eig2x2Mat]: the lowest eigenvalue and the coefficients of its vector. *)
  Definition eig2x2 (a0 a1 b : N) : result (flt * flt * flt) :=
    let crit := f_sqrt (Fin (rsub a0 a1 * rsub a0 a1 + (two N * two N) * (rconj b * b))) in
    let E0 := f_div (f_add (Fin (a0 + a1)) (f_opp crit)) (Fin (two N)) in
    let delt := f_add E0 (Fin (- a1)) in
    let o_coeff := f_sqrt (f_div delt (f_opp crit)) in
    let zero_o := f_eqb (f_add o_coeff E0) E0 || is_nan o_coeff in
    let n_coeff := f_div (f_mul (Fin b) o_coeff) delt in
    let n_coeff := if zero_o then Fin ro else n_coeff in
    let o_coeff := if zero_o then Fin rz else o_coeff in
    if is_nan o_coeff || is_nan n_coeff then Throw LogicError else Ok (E0, o_coeff, n_coeff).
End Eig.
Arguments flt N : clear implicits.
