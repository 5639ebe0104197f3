(** Model of the two loops that cut the sorted blocks of a tensor of any rank into ranges, sources/btensor_linalg.cpp:164-255: the one that
    counts the ranges and the one that fills a vector of that many places. Model only. *)
From Verif Require Import Base Quantity FlatMap Ring Index SpecIndex Dense BTensor BTensorArith Tensordot BSvd.
Set Implicit Arguments.

Section Loops.
  Variable E : Type.
  Variable same : E -> E -> bool.   (* [equal_index(...) and equal_c_vals(...)] *)
  (** sources/btensor_linalg.cpp:170-184 [compact_tensor_count]: [it1] at [x], [it2] at the head of [r]; line 183 adds one unless both are at the end. *)
  Fixpoint count_from (x : E) (r : list E) (out : nat) : nat :=
    match r with
    | [] => out + 1
    | y :: r' => count_from y r' (out + if negb (same x y) then 1 else 0)
    end.
  Definition compact_tensor_count (L : list E) : nat := match L with [] => 0 | x :: r => count_from x r 0 end.
  (** [*out_it = v]: a write beyond the vector is undefined. *)
  Fixpoint write {A} (o : nat) (v : A) (out : list (option A)) : result (list (option A)) :=
    match out, o with
    | [], _ => UB
    | _ :: r, 0 => Ok (Some v :: r)
    | y :: r, S o' => do r <- write o' v r ; Ok (y :: r)
    end.
  (** sources/btensor_linalg.cpp:240-251. [i1], [i2] and [o] are the places of [it1], [it2] and [out_it]. A range is kept in the place of the tensor
      that [compact_dense_single] makes of it; [None] is a place not written. The first argument bounds the number of steps: [None] is a loop that
      is not over. An iterator beyond the end that is not read is not counted as undefined. *)
  Fixpoint fill (fuel : nat) (L : list E) (i1 i2 o : nat) (out : list (option (list E))) : option (result (list (option (list E)))) :=
    match fuel with
    | 0 => None
    | S f =>
        if i1 =? length L then Some (Ok out)
        else
          match (if i2 =? length L then Ok true
                 else match nth_error L i1, nth_error L i2 with Some x, Some y => Ok (negb (same x y)) | _, _ => UB end) with
          | Ok true =>
              match write o (firstn (i2 - i1) (skipn i1 L)) out with
              | Ok out' => fill f L i2 (S i2) (S o) out'
              | Throw e => Some (Throw e)
              | UB => Some UB
              end
          | Ok false => fill f L i1 (S i2) o out
          | Throw e => Some (Throw e)
          | UB => Some UB
          end
    end.
  (** sources/btensor_linalg.cpp:232-251 *)
  Definition compact_ranges (fuel : nat) (L : list E) : option (result (list (option (list E)))) :=
    fill fuel L 0 1 0 (repeat None (compact_tensor_count L)).
End Loops.

Section Same.
  Context {G : abgroup} {R : ring}.
  Notation t := (btensor G R).
  Notation entry := (list nat * dense R)%type.
  (** sources/btensor_linalg.cpp:57-65, 223-224: quantity of the section of a block in dimension [rank - d]; an index beyond the vector gives the neutral quantity. *)
  Definition last_qtt (T : t) (d : nat) (e : entry) : G :=
    nth (nth (b_rank T - d) (fst e) 0) (prange (b_sbd T) (b_cv T) (b_rank T - d)) (qe G).
  (** sources/btensor_linalg.cpp:207-222 [equal_index]: all indices but the last two. *)
  Definition equal_index (T : t) (a b : entry) : bool :=
    if 2 <? b_rank T then leqb (firstn (b_rank T - 2) (fst a)) (firstn (b_rank T - 2) (fst b)) else true.
  (** sources/btensor_linalg.cpp:225-230 *)
  Definition equal_last (T : t) (a b : entry) : bool :=
    qeqb G (last_qtt T 1 a) (last_qtt T 1 b) && qeqb G (last_qtt T 2 a) (last_qtt T 2 b).
  Definition same_range (T : t) (a b : entry) : bool := equal_index T a b && equal_last T a b.
  (** sources/btensor_linalg.cpp:54-67 [reorder_by_cvals] for any rank. *)
  Definition last_lt (T : t) (a b : entry) : bool :=
    qltb G (last_qtt T 2 a) (last_qtt T 2 b) || (qeqb G (last_qtt T 2 a) (last_qtt T 2 b) && qltb G (last_qtt T 1 a) (last_qtt T 1 b)).
  Definition reorder_last (T : t) : list entry := stable_sort (last_lt T) (b_blocks T).
  Definition tensor_ranges (fuel : nat) (T : t) : option (result (list (option (list entry)))) := compact_ranges (same_range T) fuel (reorder_last T).
End Same.
