(** Reference notions for multi-indices, independent of the code: the set of all multi-indices of a shape, the
    position of an element inside a list of consecutive sections. *)
From Verif Require Import Base.
Set Implicit Arguments.

(** All multi-indices within a shape, first index slowest. *)
Fixpoint idxs (shape : list nat) : list (list nat) :=
  match shape with
  | [] => [[]]
  | s :: r => flat_map (fun i => map (cons i) (idxs r)) (seq 0 s)
  end.

(** Row-major position of a multi-index. *)
Fixpoint rowmajor (shape idx : list nat) : nat :=
  match shape, idx with
  | s :: sh, i :: ix => i * prod_list sh + rowmajor sh ix
  | _, _ => 0
  end.

(** Strict lexicographic order on lists of the same length. *)
Inductive lex_lt : list nat -> list nat -> Prop :=
| lex_here x y a b : x < y -> length a = length b -> lex_lt (x :: a) (y :: b)
| lex_next x a b : lex_lt a b -> lex_lt (x :: a) (x :: b).

(** Element [e] of a dimension cut in consecutive sections of the given sizes lies in section [b] at offset [o]. *)
Definition located (sizes : list nat) (e b o : nat) : Prop :=
  b < length sizes /\ o < nth b sizes 0 /\ e = sum_list (firstn b sizes) + o.

(** A packed vector cut into consecutive pieces of the given lengths: the sections of each dimension. *)
Fixpoint unpack {A} (counts : list nat) (packed : list A) : list (list A) :=
  match counts with [] => [] | n :: r => firstn n packed :: unpack r (skipn n packed) end.

(** Per-dimension property of the block [idx]. *)
Fixpoint pick {A} (dflt : A) (L : list (list A)) (idx : list nat) : list A :=
  match L, idx with
  | l :: L', b :: idx' => nth b l dflt :: pick dflt L' idx'
  | _, _ => []
  end.

(** First element of block [idx] along every dimension, for sections of the given sizes. *)
Fixpoint origin (L : list (list nat)) (idx : list nat) : list nat :=
  match L, idx with
  | l :: L', b :: idx' => sum_list (firstn b l) :: origin L' idx'
  | _, _ => []
  end.
(** Element index of position [o] inside block [b]. *)
Fixpoint place (L : list (list nat)) (b o : list nat) : list nat :=
  match L, b, o with
  | l :: L', x :: b', y :: o' => sum_list (firstn x l) + y :: place L' b' o'
  | _, _, _ => []
  end.
