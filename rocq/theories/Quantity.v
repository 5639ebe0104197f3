(** Conserved quantities: model of include/Conserved/quantity.h and
    include/Conserved/Composite/quantity_impl.h.  Definitions only. *)
From Verif Require Import Base.
Local Open Scope Z_scope.

(** uint16_t / int16_t conversions (C++ integer conversion modulo 2^16). *)
Definition u16 (z : Z) : Z := z mod 65536.
Definition i16 (z : Z) : Z := (z + 32768) mod 65536 - 32768.
Definition b2z (b : bool) : Z := if b then 1 else 0.

(** ** C<mod>: quantity.h 62-165.  The stored field [val : uint16_t] is a [Z] in [0,65536). *)

(** quantity.h 96: [val((_val != -N)*(_val < 0)*N + (_val % N))]; the arithmetic is done in [int]
    (N and _val are promoted), [%] truncates towards zero, and the result is converted to uint16_t. *)
Definition c_of_int (N v : Z) : Z :=
  u16 (b2z (negb (v =? - N)) * b2z (v <? 0) * N + Z.rem v N).

(** quantity.h 120-125: [val += cond*other.val; val -= (val >= N)*N;] on uint16_t. *)
Definition c_op_cond (N a b : Z) (cond : bool) : Z :=
  let v := u16 (a + b2z cond * b) in u16 (v - b2z (N <=? v) * N).
(** quantity.h 118. *)
Definition c_op (N a b : Z) : Z := c_op_cond N a b true.

(** quantity.h 135-139: [val = bool(val) * (N - val)]. *)
Definition c_inv (N a : Z) : Z := u16 (b2z (negb (a =? 0)) * (N - a)).

(** quantity.h 104: default constructor, the neutral element. *)
Definition c_neutral : Z := 0.

(** quantity.h 155-158. *)
Definition c_eqb (a b : Z) : bool := a =? b.
Definition c_ltb (a b : Z) : bool := a <? b.

(** quantity.h 37-42: squared difference of the stored values, computed in int64_t. *)
Definition dist2 (a b : Z) : Z := (a - b) * (a - b).

(** ** Z: quantity.h 175-239.  The stored field [val : int16_t]. *)

(** quantity.h 206-211: [val += cond*other.val]. *)
Definition z_op_cond (a b : Z) (cond : bool) : Z := i16 (a + b2z cond * b).
Definition z_op (a b : Z) : Z := z_op_cond a b true.
(** quantity.h 212-216: [val = -val]. *)
Definition z_inv (a : Z) : Z := i16 (- a).
Definition z_neutral : Z := 0.

(** ** Abelian group record used by the tensor code (the operations of [vquantity]). *)
Record abgroup : Type := {
  qT :> Type;
  qop : qT -> qT -> qT;          (* vquantity::op / operator*= *)
  qinv : qT -> qT;               (* vquantity::inverse *)
  qe : qT;                       (* vquantity::neutral *)
  qeqb : qT -> qT -> bool;       (* operator== *)
  qltb : qT -> qT -> bool;       (* operator< *)
  qdist2 : qT -> qT -> Z;        (* distance2 *)
  qop_assoc : forall a b c, qop a (qop b c) = qop (qop a b) c;
  qop_comm : forall a b, qop a b = qop b a;
  qop_e_l : forall a, qop qe a = a;
  qop_inv_l : forall a, qop (qinv a) a = qe;
  qeqb_spec : forall a b, qeqb a b = true <-> a = b;
  qltb_irrefl : forall a, qltb a a = false;
  qltb_trans : forall a b c, qltb a b = true -> qltb b c = true -> qltb a c = true;
  qltb_total : forall a b, qltb a b = true \/ a = b \/ qltb b a = true;
  qdist2_spec : forall a b, 0 <= qdist2 a b /\ (qdist2 a b = 0 <-> a = b);
}.

(** ** Legal values as carriers. *)
Definition c_legal (N a : Z) : bool := (0 <=? a) && (a <? N).
Definition cyc (N : Z) : Type := { a : Z | c_legal N a = true }.
Definition z_legal (a : Z) : bool := (-32768 <=? a) && (a <=? 32767).
Definition int16 : Type := { a : Z | z_legal a = true }.
