(** Model of the operators with conserved quantities: [fermions(shape)], [pauli(shape)]. *)
From Verif Require Import Base Quantity Ring Index SpecIndex Dense BTensor SelRule Models.
Set Implicit Arguments.

Section OpsBlock.
  Context {G : abgroup} {R : ring}.
  Variable big : R -> bool.
  Variable signif : dense R -> bool.
  Notation bt := (btensor G R).
  (** sources/operators.cpp:42-48, 50-57: the lambda applied to every operator. [big] is the test of [find_selection_rule],
      [signif] that of [from_basic_tensor_like]; the integer type of the dense operators is not modelled. *)
  Definition b_operator (shape : bt) (t : dense R) : result bt :=
    do r <- find_selection_rule big t shape ;
    do s <- set_selection_rule_ shape r ;
    from_basic s t signif.
  (** sources/operators.cpp:42-48 [fermions(shape)]: c_up, c_dn, F, id *)
  Definition b_fermions (shape : bt) : result (bt * bt * bt * bt) :=
    let '(c_up, c_dn, F, id) := fermions (R := R) in
    do x <- b_operator shape c_up ; do y <- b_operator shape c_dn ; do z <- b_operator shape F ; do w <- b_operator shape id ;
    Ok (x, y, z, w).
  (** sources/operators.cpp:50-57 [pauli(shape)]: Sz, lo, id *)
  Definition b_pauli (shape : bt) : result (bt * bt * bt) :=
    let '(sx, isy, sz, lo, id) := pauli (R := R) in
    do x <- b_operator shape sz ; do y <- b_operator shape lo ; do z <- b_operator shape id ;
    Ok (x, y, z).
End OpsBlock.
