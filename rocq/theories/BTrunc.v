(** Model of the truncation of block decompositions, sources/btensor_linalg.cpp:548-830. Model only.

    [gtb x y] stands for [x > y] on scalars, [lower v] for [v - 2 v epsilon], [wt x] for [|x|^pow] and [thr] for [tol^pow] (see
    Truncate.v). The conversions between the element type of the blocks and double are not modelled. Results are [None] when a
    loop of the model runs out of fuel. The units have at least one dimension: [back()] of an empty index gives 0 here. *)
From Verif Require Import Base Quantity FlatMap Ring Index SpecIndex Dense BTensor BSvd Truncate.
Set Implicit Arguments.

Definition obind {A B} (r : option (result A)) (f : A -> option (result B)) : option (result B) :=
  match r with Some (Ok a) => f a | Some (Throw e) => Some (Throw e) | Some UB => Some UB | None => None end.
Fixpoint omapM {A B} (f : A -> option (result B)) (l : list A) : option (result (list B)) :=
  match l with [] => Some (Ok []) | a :: l' => obind (f a) (fun b => obind (omapM f l') (fun r => Some (Ok (b :: r)))) end.

Section BTrunc.
  Context {G : abgroup} {R : ring} {W : weights}.
  Notation t := (btensor G R).
  Notation entry := (list nat * dense R)%type.
  Variable gtb : R -> R -> bool.
  Variable lower : R -> R.
  Variable wt : R -> W.

  (** The entries of a tensor with one dimension. *)
  Definition values (x : dense R) : list R := map (fun i => dv x [i]) (seq 0 (nth 0 (dsh x) 0)).
  (** [vd.sort(-1, true)] by its meaning: the same values in descending order. *)
  Fixpoint insert_desc (x : R) (l : list R) : list R :=
    match l with [] => [x] | y :: r => if gtb x y then x :: l else y :: insert_desc x r end.
  Definition sort_desc (l : list R) : list R := fold_right insert_desc [] l.
  (** [vd.index({Ellipsis, i})], as [t_index] of Truncate.v. *)
  Definition item (l : list R) (i : Z) : result R :=
    if ((- Z.of_nat (length l) <=? i) && (i <? Z.of_nat (length l)))%Z
    then rnth l (Z.to_nat (if (i <? 0)%Z then (i + Z.of_nat (length l))%Z else i)) else Throw TorchError.
  (** sources/btensor_linalg.cpp:663-682: the smallest value kept, a little lowered. *)
  Definition smallest_value (d : t) (thr : W) (mn mx : Z) : option (result R) :=
    let vd := sort_desc (concat (map (fun e => values (snd e)) (b_blocks d))) in
    obind (compute_last_index wt (length vd) [vd] thr mn mx) (fun i => Some (rmap lower (item vd i))).
  (** sources/btensor_linalg.cpp:548-558 [lower_bound_impl2] (570-583, 637-655 choose the element type). *)
  Fixpoint lower_bound_impl2 (acc : list R) (v : R) : nat :=
    match acc with [] => 0 | x :: r => if gtb x v then S (lower_bound_impl2 r v) else 0 end.

  (** The last index of a block. *)
  Definition back (e : entry) : nat := last (fst e) 0.
  Definition swap_at (i j : nat) (l : list entry) : list entry :=
    match nth_error l i, nth_error l j with Some a, Some b => upd (upd l i b) j a | _, _ => l end.
  (** sources/btensor_linalg.cpp:691-703; [src], [dest]: positions of [U_src], [U_dest]. *)
  Fixpoint remove_loop (fuel b src dest : nat) (l : list entry) : option (nat * nat * list entry) :=
    match fuel with
    | 0 => None
    | S f =>
        match nth_error l dest with
        | None => Some (src, dest, l)
        | Some e =>
            let dest := dest + b2n (back e =? b) in
            let l := if negb (dest =? src) && negb (dest =? length l) then swap_at dest src l else l in
            remove_loop f b (S src) (dest + b2n (negb (dest =? length l))) l
        end
    end.
  (** sources/btensor_linalg.cpp:689-708 [remove_unit_blocks] *)
  Definition remove_unit_blocks (b : nat) (U : t) : option (result t) :=
    match remove_loop (S (length (b_blocks U))) b 0 0 (b_blocks U) with
    | None => None
    | Some (src, dest, l) => Some (Ok (with_blocks U (firstn (length l - (dest - src)) l)))
    end.
  (** [x.index({Ellipsis, Slice(0, n)})] *)
  Definition first_n (n : nat) (x : dense R) : dense R := mkD (removelast (dsh x) ++ [Nat.min n (last (dsh x) 0)]) (dv x).
  Definition with_sizes (T : t) (ss : list nat) : t := @mkB G R (b_rule T) (b_rank T) (b_sbd T) ss (b_cv T) (b_blocks T).
  (** sources/btensor_linalg.cpp:709-723 [trunc_unit_block]; [nd]: [d.sections_sizes.size()]. *)
  Definition trunc_unit_block (nd b n : nat) (U : t) : option (result t) :=
    let p := length (b_ss U) + b - nd in
    if (nd <=? length (b_ss U) + b) && (p <? length (b_ss U)) then
      Some (Ok (with_blocks (with_sizes U (upd (b_ss U) p n))
        (map (fun e => if back e =? b then (fst e, first_n n (snd e)) else e) (b_blocks U))))
    else Some UB.
  (** sources/btensor_linalg.cpp:724-753: the loop over the blocks of [d] from the last to the first; [p]: position of [d_it].
      (After an erasure the code decrements the iterator of the erased block.) *)
  Fixpoint trunc_loop (v : R) (p : nat) (d : t) (us : list t) : option (result (t * list t)) :=
    match p with
    | 0 => Some (Ok (d, us))
    | S p =>
        match nth_error (b_blocks d) p with
        | None => Some UB
        | Some (k, x) =>
            let b := last k 0 in
            let n := lower_bound_impl2 (values x) v in
            if n =? 0 then
              obind (omapM (remove_unit_blocks b) us) (fun us =>
                trunc_loop v p (with_blocks d (firstn p (b_blocks d) ++ skipn (S p) (b_blocks d))) us)
            else
              let d := with_blocks d (upd (b_blocks d) p (k, first_n n x)) in
              if b <? length (b_ss d) then
                let d := with_sizes d (upd (b_ss d) b n) in
                obind (omapM (trunc_unit_block (length (b_ss d)) b n) us) (trunc_loop v p d)
              else Some UB
        end
    end.
  (** sources/btensor_linalg.cpp:657-755 [truncate_impl] *)
  Definition truncate_impl (d : t) (us : list t) (thr : W) (mn mx : Z) : option (result (t * list t)) :=
    obind (smallest_value d thr mn mx) (fun v => trunc_loop v (length (b_blocks d)) d us).
  (** sources/btensor_linalg.cpp:768-775 [truncate(U_d_V)]; the overload at 793-798 calls it. *)
  Definition truncate (UdV : t * t * t) (thr : W) (mn mx : Z) : option (result (t * t * t)) :=
    let '(U, d, V) := UdV in
    obind (truncate_impl d [U; V] thr mn mx) (fun r =>
      match r with (d, [U; V]) => Some (Ok (U, d, V)) | _ => Some UB end).
  (** sources/btensor_linalg.cpp:786-792 [truncate(e_S)]; the overload at 799-803 calls it. The first element is moved into the
      tuple of units before [truncate_impl] runs, and given as [d] as well: it has no block left (moving a tensor,
      include/blockTensor/btensor.h:143-149, leaves it without blocks). [S] is not used. *)
  Definition truncate_es (e S : t) (thr : W) (mn mx : Z) : option (result (t * t)) :=
    obind (truncate_impl (with_blocks e []) [e] thr mn mx) (fun r =>
      match r with (d, [U]) => Some (Ok (d, U)) | _ => Some UB end).
  (** sources/btensor_linalg.cpp:805-816: the truncated [svd]; [SIZE_MAX] is the maximum and 1 the minimum when none is given. *)
  Variable dsvd : dense R -> dense R * dense R * dense R.
  Definition svd_trunc (A : t) (split : nat) (thr : W) (mn mx : Z) : option (result (t * t * t)) :=
    obind (Some (svd_split dsvd A split)) (fun UdV => truncate UdV thr mn mx).
  Definition svd_tol (A : t) (split : nat) (thr : W) : option (result (t * t * t)) := svd_trunc A split thr 1 (2 ^ 64 - 1).
End BTrunc.
