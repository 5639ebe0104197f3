(** Model of [btensor::reshape], [btensor::reshape_as] and their helpers. *)
From Verif Require Import Base Quantity FlatMap Ring Index SpecIndex Dense BTensor BTensorArith Tensordot.
Set Implicit Arguments.

(** The iterator range [l.begin() + a, l.begin() + b). *)
Definition seg {A} (a b : nat) (l : list A) : list A := firstn (b - a) (skipn a l).
(** Consecutive pairs: [std::transform(g.begin(), g.end()-1, g.begin()+1, ...)]. *)
Definition pairs (g : list nat) : list (nat * nat) := combine g (tl g).

Section Reshape.
  Context {G : abgroup} {R : ring}.
  Implicit Types T : btensor G R.
  Notation entry := (list nat * dense R)%type.

  (** sources/btensor.cpp:2763-2780 [reshape_sections_by_dim]; a range that is not inside the vector is undefined
      behaviour. The group boundaries are signed in C++; negative ones are undefined behaviour and not modelled. *)
  Definition reshape_sections_by_dim (g : list nat) (sbd : list nat) : result (list nat) :=
    rmapM (fun '(a, b) => if (a <=? b) && (b <=? length sbd) then Ok (prod_list (seg a b sbd)) else UB) (pairs g).

  (** sources/btensor.cpp:2791-2824 [reshape_block_prop]: [mul] is [operator*=] of the property, [out] collects the values
      written through [out_it]; writing more than [out_size] values is undefined behaviour, what is not written keeps the
      initial value. *)
  Definition reshape_block_prop {A} (mul : A -> A -> A) (g : list nat) (vals : list A) (val : A) (out_size : nat)
    (sbd addresses : list nat) : result (list A) :=
    do out <- rfold (fun out '(a, b) =>
        if negb ((a <=? b) && (b <=? length sbd)) then UB
        else
          odo_loop (fun out j =>
              do v <- rfold (fun v i =>
                  do ad <- rnth addresses (i + a) ;
                  do ji <- rnth j i ;
                  do x <- rnth vals (ad + ji) ; Ok (mul v x)) (seq 0 (b - a)) val ;
              Ok (out ++ [v]))
            (inc_right (seg a b sbd)) (S (prod_list (seg a b sbd))) out (zeros (b - a))) (pairs g) [] ;
    if length out <=? out_size then Ok (out ++ repeat val (out_size - length out)) else UB.

  (** sources/btensor.cpp:2835-2861 [reshape_block_index(index_groups, ...)]: one mixed-radix number per group, computed
      from the back as in [cpp_flatten]. *)
  Definition reshape_block_index (g : list nat) (idx sbd : list nat) : list nat :=
    map (fun '(a, b) => cpp_flatten (seg a b idx) (seg a b sbd)) (pairs g).

  (** sources/btensor.cpp:2862-2888 [new_block_shape]: [p] is the position of [out_it], [gp] that of [index_it]; the group
      advances by at most one per dimension. *)
  Definition new_block_shape (g : list nat) (sizes : list nat) (rank : nat) : result (list nat) :=
    do st <- rfold (fun '(p, gp, out) i =>
        do bound <- rnth g gp ;
        let '(p, gp) := if bound <=? i then (S p, S gp) else (p, gp) in
        do o <- rnth out p ;
        do s <- rnth sizes i ;
        Ok (p, gp, upd out p (o * s)))
      (seq 0 (last g 0)) (0, 1, repeat 1 rank) ;
    Ok (snd st).

  (** sources/btensor.cpp:2986-3024 [reshape] *)
  Definition reshape T (index_groups : list nat) : result (btensor G R) :=
    let out_rank := S (length index_groups) in
    let g := 0 :: index_groups ++ [b_rank T] in
    match b_sbd T with
    | [] => UB   (* [sections_by_dim.end() - 1] *)
    | _ =>
        let addresses := map (fun i => sum_list (firstn i (b_sbd T))) (seq 0 (length (b_sbd T))) in
        do sbd <- reshape_sections_by_dim g (b_sbd T) ;
        let out_size := sum_list sbd in
        do ss <- reshape_block_prop Nat.mul g (b_ss T) 1 out_size (b_sbd T) addresses ;
        do cv <- reshape_block_prop (qop G) g (b_cv T) (qe G) out_size (b_sbd T) addresses ;
        do blocks <- rmapM (fun '(idx, t) =>
            do bs <- block_sizes T idx ;
            do sh <- new_block_shape g bs out_rank ;
            do t' <- t_reshape sh t ;
            Ok (reshape_block_index g idx (b_sbd T), t')) (b_blocks T) ;
        make (@mkB G R (b_rule T) out_rank sbd ss cv (fm_sort lexb blocks))
    end.

  (** sources/btensor.cpp:2944-2984 [compatible_c_vals], [compatible_block_size]: both block indices are incremented
      together until the left one is back at zero or a difference is seen. [P] is the accumulated property. *)
  Fixpoint compat_loop {A} (P : btensor G R -> list nat -> result A) (aeqb : A -> A -> bool) (lhs rhs : btensor G R)
    (fuel : nat) (li ri : list nat) : result bool :=
    match fuel with
    | 0 => UB
    | Datatypes.S f =>
        do x <- P lhs li ; do y <- P rhs ri ;
        let out := aeqb x y in
        let li' := inc_right (b_sbd lhs) li in let ri' := inc_right (b_sbd rhs) ri in
        if any_truth li' && out then compat_loop P aeqb lhs rhs f li' ri' else Ok out
    end.
  Definition flux T idx : result G := do qs <- block_quantities T idx ; Ok (fold_left (qop G) qs (qe G)).
  Definition volume T idx : result nat := do s <- block_sizes T idx ; Ok (fold_left Nat.mul s 1).
  Definition compatible_c_vals (lhs rhs : btensor G R) : result bool :=
    compat_loop flux (qeqb G) lhs rhs (S (prod_list (b_sbd lhs))) (zeros (b_rank lhs)) (zeros (b_rank rhs)).
  Definition compatible_block_size (lhs rhs : btensor G R) : result bool :=
    compat_loop volume Nat.eqb lhs rhs (S (prod_list (b_sbd lhs))) (zeros (b_rank lhs)) (zeros (b_rank rhs)).

  (** sources/btensor.cpp:3026-3083 [reshape_as]; [ovw] is [Mode == reshape_mode::overwrite_c_vals]. The modulo by the
      number of sections of the output is never by zero when a block is stored. *)
  Definition reshape_as (ovw : bool) T (other : btensor G R) : result (btensor G R) :=
    if negb (prod_list (b_sbd other) =? prod_list (b_sbd T)) then Throw InvalidArgument
    else
      do cok <- (if ovw then Ok true else compatible_c_vals T other) ;
      if negb cok then Throw InvalidArgument
      else
        do sok <- compatible_block_size T other ;
        if negb sok then Throw InvalidArgument
        else
          do blocks <- rmapM (fun '(idx, t) =>
              let idx' := reshape_block_index4 idx (b_sbd other) (b_sbd T) in
              do allow <- (if ovw then block_conservation_rule_test other idx' else Ok true) ;
              if negb allow then Throw InvalidArgument
              else
                do sh <- block_sizes other idx' ;
                do t' <- t_reshape sh t ;
                Ok (idx', t')) (b_blocks T) ;
          make (@mkB G R (if ovw then b_rule other else b_rule T) (b_rank other) (b_sbd other) (b_ss other) (b_cv other)
                  (fm_sort lexb blocks)).
End Reshape.
