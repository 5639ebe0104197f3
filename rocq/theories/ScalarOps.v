(** Comparisons of block tensors with scalars, division by and of scalars, search for NaN. Model only. *)
From Verif Require Import Base Quantity Ring SpecIndex Dense BTensor BTensorArith.
Set Implicit Arguments.

Inductive cmp := CLe | CGe | CLt | CGt | CEq | CNe.

Section S.
  Context {G : abgroup} {R : ring}.
  Implicit Types T : btensor G R.
  (** The element functions of torch ([le], [ge], [less], [greater], [eq], [not_equal]) on real numbers, from [<=]; one and zero for true and false. *)
  Variable leb : R -> R -> bool.
  Definition t_test (r : cmp) (x y : R) : bool :=
    match r with
    | CLe => leb x y
    | CGe => leb y x
    | CLt => leb x y && negb (reqb x y)
    | CGt => leb y x && negb (reqb x y)
    | CEq => reqb x y
    | CNe => negb (reqb x y)
    end.
  Definition t_bool (b : bool) : R := if b then ro else rz.
  (** sources/btensor.cpp:911-959 [le], [ge], [eq], [less], [not_equal], [greater] with a scalar: the function on the blocks that are stored
      (include/blockTensor/btensor.h:945-972 [new_block_list_apply_to_all_blocks]). Simplification: the element type of the result (booleans) is not modelled, true and false are one and zero. *)
  Definition m_cmp (r : cmp) T (c : R) : btensor G R := bt_elementwise (fun x => t_bool (t_test r x c)) T.
  (** include/blockTensor/btensor.h:1406-1409, 1413, 1416 and the operators at 1420, 1423, 1426, 1429, 1432, 1435: a scalar on the left *)
  Definition s_cmp (r : cmp) (c : R) T : btensor G R :=
    m_cmp match r with CGt => CLt | CLt => CGt | CLe => CGe | CGe => CLe | CEq => CEq | CNe => CNe end T c.

  Variable div : R -> R -> R.
  (** sources/btensor.cpp:966-976 [div(Scalar)]; [div] is the division of torch. Simplification: exact scalars, no promotion of element types. *)
  Definition m_div T (c : R) : btensor G R := bt_elementwise (fun x => div x c) T.
  (** sources/btensor.cpp:960-965 [div_(Scalar)]: every block multiplied in place by the inverse. Simplification: the value of the object afterwards; the exception of
      torch for tensors of integers is not modelled. *)
  Definition m_div_ T (c : R) : btensor G R := bt_elementwise (fun x => rmul x (div ro c)) T.
  (** sources/btensor.cpp:3159-3166 [operator/(Scalar, btensor)]: [std::transform] writes as many blocks as [T] has from [begin()] of a block list
      that has none; reserved space is not made of elements. *)
  Definition s_div (c : R) T : result (btensor G R) :=
    match b_blocks T with [] => Ok (sparse_zeros_like T) | _ => UB end.

  (** sources/btensor.cpp:3116-3127 [anynan]; [nan] tells the elements that are not numbers *)
  Variable nan : R -> bool.
  Fixpoint nan_loop (l : list (list nat * dense R)) (out : bool) : bool :=
    match l with
    | [] => out
    | (_, t) :: l' => let out := out || existsb (fun i => nan (dv t i)) (idxs (dsh t)) in if out then out else nan_loop l' out
    end.
  Definition anynan T : bool := nan_loop (b_blocks T) false.
End S.
