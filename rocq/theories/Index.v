(** Block indices: odometers, flattening, packed per-dimension vectors and element decomposition.
    Model only; proofs in IndexProofs.v. *)
From Verif Require Import Base.
Set Implicit Arguments.

(** [std::vector<int64_t>::operator<] and [==]: lexicographic order, used as key order of the block list
    (include/blockTensor/flat_map.h:60-75, key type [index_list]). *)
Fixpoint lexb (a b : list nat) : bool :=
  match a, b with
  | _, [] => false
  | [], _ :: _ => true
  | x :: a', y :: b' => (x <? y) || ((x =? y) && lexb a' b')
  end.
Fixpoint leqb (a b : list nat) : bool :=
  match a, b with
  | [], [] => true
  | x :: a', y :: b' => (x =? y) && leqb a' b'
  | _, _ => false
  end.

Definition b2n (b : bool) : nat := if b then 1 else 0.

(** sources/btensor.cpp:154-168 [block_increment] and 221-230 [increment_index_left] (same loop body), [add] is
    [cond_add] on entry of the loop for the remaining dimensions. [sizes[i]-1] for a size 0 is -1 in C++ and 0 here;
    the comparison [index < size-1] has the same outcome. *)
Fixpoint inc_left_go (add : bool) (sizes idx : list nat) : list nat :=
  match sizes, idx with
  | s :: sizes', i :: idx' =>
      let cond_reset := (i <? s - 1) || negb add in
      (if cond_reset then i + b2n add else 0) :: inc_left_go (add && negb cond_reset) sizes' idx'
  | _, _ => idx
  end.
Definition inc_left (sizes idx : list nat) : list nat := inc_left_go true sizes idx.

(** sources/btensor.cpp:201-211 [increment_index_right]: the loop runs from the last dimension to the first.
    The first component is [cond_add] on exit of the loop over the given suffix of dimensions. *)
Fixpoint inc_right_go (sizes idx : list nat) : bool * list nat :=
  match sizes, idx with
  | s :: sizes', i :: idx' =>
      let '(add, rest) := inc_right_go sizes' idx' in
      let cond_reset := (i <? s - 1) || negb add in
      (add && negb cond_reset, (if cond_reset then i + b2n add else 0) :: rest)
  | _, _ => (true, idx)
  end.
Definition inc_right (sizes idx : list nat) : list nat := snd (inc_right_go sizes idx).

(** sources/btensor.cpp any_truth (used as loop condition of do/while odometer loops): some entry non-zero. *)
Definition any_truth (idx : list nat) : bool := existsb (fun i => negb (i =? 0)) idx.

(** The index list at loop entry: [index_list(rank, 0)]. *)
Definition zeros (rank : nat) : list nat := repeat 0 rank.

(** The sequence of index values seen by a loop [for i < n] that increments at the end of its body. *)
Fixpoint visit (inc : list nat -> list nat) (n : nat) (idx : list nat) : list (list nat) :=
  match n with 0 => [] | S n' => idx :: visit inc n' (inc idx) end.

(** sources/btensor.cpp:2903-2918 lambda [flatten]: both iterators run from the back; [(out, s)] is the loop state.
    Simplified: index and size lists have the same length. *)
Definition cpp_flatten (idx sizes : list nat) : nat :=
  fst (fold_right (fun '(sz, i) '(out, s) => (out + s * i, s * sz)) (0, 1) (combine sizes idx)).
(** sources/btensor.cpp:2919-2932 lambda [unflatten]: [(flat, out)] is the loop state. Division by a zero size is
    undefined behaviour in C++; the theorems assume sizes for which it is not reached. *)
Definition cpp_unflatten (flat : nat) (sizes : list nat) : list nat :=
  snd (fold_right (fun sz '(f, out) => (f / sz, f mod sz :: out)) (flat, []) sizes).
(** sources/btensor.cpp:2898-2936 [reshape_block_index(in_block_index, out_rank, out_sections_by_dim, sections_by_dim)] *)
Definition reshape_block_index4 (idx out_sizes in_sizes : list nat) : list nat :=
  cpp_unflatten (cpp_flatten idx in_sizes) out_sizes.

(** Packed vectors: [sections_sizes] and [c_vals] hold the sections of dimension 0, then of dimension 1, ...
    sources/btensor.cpp:68-85 ([section_size], [section_conserved_qtt]): address of section [b] of dimension [d]. *)
Definition address (sbd : list nat) (d b : nat) : nat := sum_list (firstn d sbd) + b.
Definition psection {A} (dflt : A) (sbd : list nat) (packed : list A) (d b : nat) : A :=
  nth (address sbd d b) packed dflt.
(** sources/btensor.cpp:106-152 [section_sizes(dim)], [section_conserved_qtt_range(dim)]: the range of dimension [d]. *)
Definition prange {A} (sbd : list nat) (packed : list A) (d : nat) : list A :=
  firstn (nth d sbd 0) (skipn (sum_list (firstn d sbd)) packed).
(** sources/btensor.cpp:3147-3153: the inner while loop of [element_index_decompose]
    (also 629-635, [to_block_basis]). Result: (block_ind, ind). *)
Fixpoint find_section (sizes : list nat) (e : nat) : nat * nat :=
  match sizes with
  | [] => (0, e)
  | s :: r => if s <=? e then let '(b, o) := find_section r (e - s) in (S b, o) else (0, e)
  end.
(** sources/btensor.cpp:3134-3158 [element_index_decompose]: one packed iterator walks over the dimensions. *)
Fixpoint element_index_decompose (sbd ss : list nat) (e : list nat) : list nat * list nat :=
  match sbd, e with
  | n :: sbd', x :: e' =>
      let '(b, o) := find_section (firstn n ss) x in
      let '(bs, os) := element_index_decompose sbd' (skipn n ss) e' in
      (b :: bs, o :: os)
  | _, _ => ([], [])
  end.

(** sources/btensor.cpp:86-105 [element_conserved_qtt]: parallel scan of quantities and sizes. *)
Fixpoint scan_qtt {Q} (qs : list Q) (sizes : list nat) (e : nat) : result Q :=
  match qs, sizes with
  | [], _ => Throw RuntimeError
  | q :: qs', s :: sizes' => if s <=? e then scan_qtt qs' sizes' (e - s) else Ok q
  | _ :: _, [] => UB
  end.
Definition element_conserved_qtt {Q} (sbd ss : list nat) (cv : list Q) (dim e : nat) : result Q :=
  if sum_list (prange sbd ss dim) <=? e then Throw InvalidArgument
  else scan_qtt (prange sbd cv dim) (prange sbd ss dim) e.
