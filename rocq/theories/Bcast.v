(** Element-wise operations with broadcasting: multiplication, division, powers and comparisons of block tensors. Model only.
    Storage sharing between tensors is not modelled: an operation in place is described by the values it leaves. *)
From Verif Require Import Base Quantity FlatMap Ring Index Dense BTensor.
Set Implicit Arguments.

(** Torch broadcasting by its documented meaning: shapes are aligned at the last dimension, sizes must be equal or one of
    them 1; [bc_shape] works on reversed shapes. *)
Fixpoint bc_shape (a b : list nat) : option (list nat) :=
  match a, b with
  | [], _ => Some b
  | _, [] => Some a
  | x :: a', y :: b' =>
      if (x =? y) || (x =? 1) || (y =? 1)
      then match bc_shape a' b' with Some r => Some ((if x =? 1 then y else x) :: r) | None => None end
      else None
  end.
(** Index in a tensor of shape [sh] read for index [i] of the result. *)
Definition bproj (sh i : list nat) : list nat :=
  map2 (fun s x => if s =? 1 then 0 else x) sh (skipn (length i - length sh) i).
(** [f(a, b)] element by element; with [inplace] the result must have the shape of [a]. *)
Definition t_zip {R : ring} (inplace : bool) (f : R -> R -> R) (a b : dense R) : result (dense R) :=
  match bc_shape (rev (dsh a)) (rev (dsh b)) with
  | None => Throw TorchError
  | Some r => if inplace && negb (leqb (rev r) (dsh a)) then Throw TorchError
              else Ok (mkD (rev r) (fun i => f (dv a (bproj (dsh a) i)) (dv b (bproj (dsh b) i))))
  end.

Section Bcast.
  Context {G : abgroup} {R : ring}.
  Notation t := (btensor G R).
  Notation leg := (list nat * list G)%type.

  (** One section of size one. *)
  Definition bc_one (l : list nat) : bool := (length l =? 1) && (nth 0 l 0 =? 1).
  (** sources/btensor.cpp:991-1020: one entry of [comp_mask] (bit 0: the tensor of smaller rank has size one; bit 1: the
      other one). *)
  Definition bc_mask (s l : list nat) : result (bool * bool) :=
    let m := (bc_one s, bc_one l) in
    if negb (fst m || snd m) && negb (length s =? length l) then Throw InvalidArgument else Ok m.
  (** sources/btensor.cpp:1056-1064: the quantities of the longer list times those of the shorter one, from the last to the
      first; the first of the shorter list is used again when it is exhausted. Both lists reversed. (Decrementing the end of an
      empty range is not counted as undefined when nothing is read.) *)
  Fixpoint bc_zip (long short : list G) : result (list G) :=
    match long, short with
    | [], _ => Ok []
    | _ :: _, [] => UB
    | x :: long', [y] => do r <- bc_zip long' [y] ; Ok (qop G x y :: r)
    | x :: long', y :: short' => do r <- bc_zip long' short' ; Ok (qop G x y :: r)
    end.
  (** sources/btensor.cpp:1034-1065: sizes and quantities of one dimension of the result. *)
  Definition bc_leg (s l : leg) : result leg :=
    let '(long, short) := if length (fst s) <? length (fst l) then (l, s) else (s, l) in
    do r <- bc_zip (rev (snd long)) (rev (snd short)) ; Ok (fst long, rev r).
  Definition dims (T : t) : list leg := map (fun d => (prange (b_sbd T) (b_ss T) d, prange (b_sbd T) (b_cv T) d)) (seq 0 (b_rank T)).
  (** sources/btensor.cpp:980-1084 [mul_helpers::shape_compute]. The packed vectors are written backwards, dimension by
      dimension, and the leading dimensions of the tensor of larger rank are copied: here they are concatenated. *)
  Definition shape_compute (small large : t) : result (list (bool * bool) * t) :=
    let p := b_rank large - b_rank small in
    let pairs := combine (dims small) (skipn p (dims large)) in
    do mask <- rmapM (fun '(s, l) => bc_mask (fst s) (fst l)) pairs ;
    do ls <- rmapM (fun '(s, l) => bc_leg s l) pairs ;
    let out := firstn p (dims large) ++ ls in
    let sbd := firstn p (b_sbd large) ++
      map (fun '(m, (s, l)) => if fst m || snd m then Nat.max (length (fst s)) (length (fst l)) else length (fst l)) (combine mask pairs) in
    Ok (mask, @mkB G R (qop G (b_rule large) (b_rule small)) (b_rank large) sbd (concat (map fst out)) (concat (map snd out)) []).
  (** The last [n] entries. *)
  Definition lastn (n : nat) (l : list nat) : list nat := skipn (length l - n) l.
  (** sources/btensor.cpp:1085-1105 [match_index], 1106-1122 [out_index]; block indices have the length of the rank. *)
  Definition match_index (mask : list (bool * bool)) (a b : list nat) : bool :=
    forallb (fun '(m, (x, y)) => (fst m || snd m) || (x =? y)) (combine mask (combine (lastn (length mask) a) (lastn (length mask) b))).
  Definition out_index (large small : list nat) : result (list nat) :=
    if length large <? length small then UB
    else Ok (firstn (length large - length small) large ++ map2 Nat.max (lastn (length small) large) small).
  (** sources/btensor.cpp:1660-1677 and 1252-1278: the loop over pairs of blocks. *)
  Definition bc_loop (mask : list (bool * bool)) (this_large : bool) (f : dense R -> dense R -> result (dense R)) (a b : t) : result (list (list nat * dense R)) :=
    rfold (fun out '(kb, tb) =>
      rfold (fun out '(ka, ta) =>
        let '(l, s) := if this_large then (ka, kb) else (kb, ka) in
        if match_index mask l s then
          do k <- out_index l s ;
          do v <- f ta tb ;
          Ok (fst (fm_emplace_hint lexb out (length out) (k, v)))
        else Ok out) (b_blocks a) out) (b_blocks b) [].
  (** sources/btensor.cpp:1630-1691 [broadcast_operation] *)
  Definition broadcast_operation (f : R -> R -> R) (a b : t) : result t :=
    let this_large := b_rank b <=? b_rank a in
    do c <- (if this_large then shape_compute b a else shape_compute a b) ;
    let '(mask, sh) := c in
    do bl <- bc_loop mask this_large (t_zip false f) a b ;
    make (with_blocks sh bl).
  (** sources/btensor.cpp:1204-1291 [broadcast_operation_]; [ip], [ip_] tell whether the two functions given work in place.
      No check of the result. [out_index] is always called with the index of [this] first. *)
  Definition broadcast_operation_ (f : R -> R -> R) (ip ip_ : bool) (a b : t) : result t :=
    let this_large := b_rank b <=? b_rank a in
    do c <- (if this_large then shape_compute b a else shape_compute a b) ;
    let '(mask, sh) := c in
    let can := forallb (fun m => negb (if this_large then snd m && negb (fst m) else fst m && negb (snd m))) mask in
    do bl <- bc_loop mask true (t_zip (if can then ip_ else ip) f) a b ;
    Ok (with_blocks sh bl).
End Bcast.

(** [pow_] passes its two functions in the other order, so that blocks are changed in place exactly when they should not be:
    then one block of [this] may be changed several times and be shared by several blocks of the result. This sharing is not
    modelled: [b_pow_] is only meant for the case where every change is followed by no other of the same block. *)
(** sources/btensor.cpp:1749-1752 [mul], 1293-1297 [mul_], 1737-1748 [div], [pow], [pow_], 1298-1303 [div_] *)
Definition b_mul {G : abgroup} {R : ring} (a b : btensor G R) := broadcast_operation rmul a b.
Definition b_mul_ {G : abgroup} {R : ring} (a b : btensor G R) := broadcast_operation_ rmul false true a b.
Definition b_div {G : abgroup} {R : ring} (div : R -> R -> R) (a b : btensor G R) := broadcast_operation div a b.
Definition b_div_ {G : abgroup} {R : ring} (div : R -> R -> R) (a b : btensor G R) := broadcast_operation_ div false true a b.
Definition b_pow {G : abgroup} {R : ring} (pow : R -> R -> R) (a b : btensor G R) := broadcast_operation pow a b.
Definition b_pow_ {G : abgroup} {R : ring} (pow : R -> R -> R) (a b : btensor G R) := broadcast_operation_ pow true false a b.
(** sources/btensor.cpp:1693-1736: comparisons; [cmp] gives the element 1 or 0. *)
Definition b_compare {G : abgroup} {R : ring} (cmp : R -> R -> bool) (a b : btensor G R) := broadcast_operation (fun x y => if cmp x y then ro else rz) a b.
