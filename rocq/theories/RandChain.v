(** Random chains of block tensors. Model only. Random numbers come from arbitrary functions. *)
From Verif Require Import Base Quantity FlatMap Ring Index Dense BTensor BTensorArith Tensordot Reshape View Bcast Rand.
Set Implicit Arguments.

Section RandChain.
  Context {G : abgroup} {R : ring}.
  Notation bt := (btensor G R).
  (** Element-wise division and square root of torch. *)
  Variable div : R -> R -> R.
  Variable sqrt : R -> R.

  (** [std::sort] with operator<: equal quantities cannot be told apart. *)
  Fixpoint q_insert (a : G) (l : list G) : list G :=
    match l with [] => [a] | b :: r => if qltb G b a then b :: q_insert a r else a :: l end.
  Definition q_sort (l : list G) : list G := fold_right q_insert [] l.
  (** sources/MPT.cpp:397-419: lengths of the runs of equal quantities. *)
  Fixpoint runs (l : list G) : list (nat * G) :=
    match l with
    | [] => []
    | a :: r => match runs r with
                | (n, b) :: t => if qeqb G a b then (S n, b) :: t else (1, a) :: (n, b) :: t
                | [] => [(1, a)]
                end
    end.
  (** sources/MPT.cpp:387-421 [make_right_side], after the update of the accumulated quantities; for no quantity at all
      [L.end() - 1] is undefined. The constructor checks the metadata. *)
  Definition make_right_side (accum : list G) (rule : G) : result bt :=
    match accum with
    | [] => UB
    | _ => let rs := runs (q_sort accum) in make (@mkB G R rule 1 [length rs] (map fst rs) (map snd rs) [])
    end.
  (** sources/MPT.cpp:391-394: [strings] are the drawn configurations, one per value of the bond. *)
  Definition accumulate (i : nat) (cv : list G) (strings : list (list nat)) (accum : list G) : result (list G) :=
    rmapM (fun '(a, s) => do o <- rnth s i ; do v <- rnth cv o ; Ok (qop G a (qinv G v))) (combine accum strings).
  (** sources/btensor.cpp:1511-1520 [sqrt] *)
  Definition b_sqrt (T : bt) : bt := map_blocks (d_map sqrt) T.
  (** sources/MPT.cpp:450 *)
  Definition normalize (T : bt) : result bt :=
    do n <- b_mul T (conj T) ; b_div_ div T (b_sqrt (bt_sum n)).
  (** sources/MPT.cpp:445-457: one site; the state is the sites so far, the accumulated quantities and [left_side]. *)
  Definition chain_site (rnd : nat -> list nat -> list nat -> dense R) (constraint : G) (strings : list (list nat))
    (st : list bt * list G * bt) (ip : nat * bt) : result (list bt * list G * bt) :=
    let '(out, accum, left_side) := st in
    let '(i, phys) := ip in
    let rule := if i =? 0 then constraint else qe G in
    do accum' <- accumulate i (b_cv phys) strings accum ;
    do right_side <- make_right_side accum' rule ;
    do sh <- shape_from_list [left_side; phys; right_side] ;
    do t <- rand_like sh (rnd i) ;
    do t' <- normalize t ;
    do right_side <- (if i =? 0 then set_selection_rule_ right_side (qe G) else Ok right_side) ;
    Ok (out ++ [t'], accum', inverse_cvals right_side).
  (** sources/MPT.cpp:423-462 [random_bMPS_impl]; the physical dimensions are rank-1 tensors. Without sites [out.back()] is
      undefined. [check_ranks] in debug mode is left out. *)
  Definition random_bMPS (src : nat -> nat) (rnd : nat -> list nat -> list nat -> dense R) (bond_dim : nat) (phys : list bt) (constraint : G)
    (n_pass : nat) : result (list bt) :=
    let L := length phys in
    do strings <- rmapM (fun j => generate_random_string (fun i => src (j * L + i)) (map (@b_cv G R) phys) constraint n_pass) (seq 0 bond_dim) ;
    do st <- rfold (chain_site rnd constraint strings) (combine (seq 0 L) phys)
               ([], repeat constraint bond_dim, @of_struct G R [[(1, qe G)]] (qe G)) ;
    let out := fst (fst st) in
    match rev out with
    | [] => UB
    | b :: r => do b' <- basic_create_view b [-1; -1; 0]%Z true ; Ok (rev r ++ [b'])
    end.
End RandChain.
