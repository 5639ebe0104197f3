(** Model of include/blockTensor/flat_map.h: a map stored as a vector of (key,value) sorted by key.
    Definitions only.  Iterators are positions ([nat], [length l] is end()).
    std::lower_bound/upper_bound are given by their meaning on partitioned ranges (number of leading
    elements satisfying the predicate); the C++ binary search returns the same position on sorted data. *)
From Verif Require Import Base.
Set Implicit Arguments.

Section FlatMap.
  Variables K V : Type.
  Variable keqb : K -> K -> bool.   (* operator== of the key *)
  Variable kltb : K -> K -> bool.   (* Comp_less *)
  Variable vdefault : V.            (* mapped_type() *)
  Notation entry := (K * V)%type.

  (** std::lower_bound(begin,end,k,comp). *)
  Fixpoint lower_bound (k : K) (l : list entry) : nat :=
    match l with
    | [] => 0
    | e :: r => if kltb (fst e) k then S (lower_bound k r) else 0
    end.
  (** std::upper_bound(begin,end,k,comp). *)
  Fixpoint upper_bound (k : K) (l : list entry) : nat :=
    match l with
    | [] => 0
    | e :: r => if kltb k (fst e) then 0 else S (upper_bound k r)
    end.

  (** std::vector::insert(pos, x) and erase(pos). *)
  Definition vec_insert (i : nat) (x : entry) (l : list entry) : list entry :=
    firstn i l ++ x :: skipn i l.
  Definition vec_erase (i : nat) (l : list entry) : list entry := firstn i l ++ skipn (S i) l.

  (** at: flat_map.h 227-235. *)
  Definition fm_at (l : list entry) (k : K) : result V :=
    match nth_error l (lower_bound k l) with
    | None => Throw OutOfRange
    | Some e => if kltb k (fst e) then Throw OutOfRange else Ok (snd e)
    end.

  (** operator[]: flat_map.h 236-244; returns the map and the position of the referenced element. *)
  Definition fm_subscript (l : list entry) (k : K) : list entry * nat :=
    let i := lower_bound k l in
    match nth_error l i with
    | None => (vec_insert i (k, vdefault) l, i)
    | Some e => if kltb k (fst e) then (vec_insert i (k, vdefault) l, i) else (l, i)
    end.
  (** [m[k] = v]. *)
  Definition fm_subscript_assign (l : list entry) (k : K) (v : V) : list entry :=
    let (l', i) := fm_subscript l k in
    firstn i l' ++ match nth_error l' i with Some e => [(fst e, v)] | None => [] end ++ skipn (S i) l'.

  (** insert(value): flat_map.h 267-288. *)
  Definition fm_insert (l : list entry) (x : entry) : list entry * nat * bool :=
    let i := lower_bound (fst x) l in
    match nth_error l i with
    | None => (vec_insert i x l, i, true)
    | Some e => if negb (keqb (fst e) (fst x)) then (vec_insert i x l, i, true) else (l, i, false)
    end.

  (** emplace(args...): flat_map.h 494-507 (tests comp(val,*it) instead of !=). *)
  Definition fm_emplace (l : list entry) (x : entry) : list entry * nat * bool :=
    let i := lower_bound (fst x) l in
    match nth_error l i with
    | None => (vec_insert i x l, i, true)
    | Some e => if kltb (fst x) (fst e) then (vec_insert i x l, i, true) else (l, i, false)
    end.

  (** use_hint(const_iterator, key) const: flat_map.h 753-762.  Every hinted insertion takes a
      const_iterator, so overload resolution always picks this one. [hint <= length l]. *)
  Definition use_hint (l : list entry) (hint : nat) (k : K) : nat * nat :=
    if length l =? 0 then (0, 0) else
    let hint := if hint =? length l then hint - 1 else hint in
    match nth_error l hint with
    | None => (0, length l)   (* not a valid iterator *)
    | Some e => (if kltb (fst e) k then hint else 0, if kltb k (fst e) then length l else hint + 1)
    end.
  (** std::lower_bound(first,last,k,comp) on the window. *)
  Definition lower_bound_in (k : K) (l : list entry) (w : nat * nat) : nat :=
    fst w + lower_bound k (firstn (snd w - fst w) (skipn (fst w) l)).

  (** insert(hint,value): flat_map.h 295-318. *)
  Definition fm_insert_hint (l : list entry) (hint : nat) (x : entry) : list entry :=
    let i := lower_bound_in (fst x) l (use_hint l hint (fst x)) in
    match nth_error l i with
    | None => vec_insert i x l
    | Some e => if negb (keqb (fst e) (fst x)) then vec_insert i x l else l
    end.
  (** emplace(hint,args...): flat_map.h 509-530. *)
  Definition fm_emplace_hint (l : list entry) (hint : nat) (x : entry) : list entry * bool :=
    let i := lower_bound_in (fst x) l (use_hint l hint (fst x)) in
    match nth_error l i with
    | None => (vec_insert i x l, true)
    | Some e => if kltb (fst x) (fst e) then (vec_insert i x l, true) else (l, false)
    end.

  (** insert_or_assign(k,obj): flat_map.h 427-456.  [*it] is read without testing for end(). *)
  Definition fm_insert_or_assign (l : list entry) (x : entry) : result (list entry * bool) :=
    let i := lower_bound (fst x) l in
    match nth_error l i with
    | None => UB
    | Some e => if kltb (fst x) (fst e) then Ok (vec_insert i x l, true)
                else Ok (firstn i l ++ x :: skipn (S i) l, false)
    end.
  (** try_emplace(k,args...): flat_map.h 531-553. Same unchecked read. *)
  Definition fm_try_emplace (l : list entry) (x : entry) : result (list entry * bool) :=
    let i := lower_bound (fst x) l in
    match nth_error l i with
    | None => UB
    | Some e => if kltb (fst x) (fst e) then Ok (vec_insert i x l, true) else Ok (l, false)
    end.

  (** erase(pos): flat_map.h 582-583. erase(end()) is UB. *)
  Definition fm_erase_pos (l : list entry) (i : nat) : result (list entry) :=
    if i <? length l then Ok (vec_erase i l) else UB.
  (** erase(key): flat_map.h 585-594: [it = lower_bound(k); if (comp( *it,k)) return 0; erase(it); return 1]. *)
  Definition fm_erase_key (l : list entry) (k : K) : result (list entry * nat) :=
    let i := lower_bound k l in
    match nth_error l i with
    | None => UB
    | Some e => if kltb (fst e) k then Ok (l, 0) else Ok (vec_erase i l, 1)
    end.

  (** find: flat_map.h 671-678 (position, [length l] for end()); count/contains: 680-681. *)
  Definition fm_find (l : list entry) (k : K) : nat :=
    let i := lower_bound k l in
    match nth_error l i with
    | None => length l
    | Some e => if kltb k (fst e) then length l else i
    end.
  Definition fm_contains (l : list entry) (k : K) : bool := negb (fm_find l k =? length l).

  (** lower_bound(k): flat_map.h 693-706 (returns end() unless the key is present; unchecked read). *)
  Definition fm_lower_bound (l : list entry) (k : K) : result nat :=
    let i := lower_bound k l in
    match nth_error l i with
    | None => UB
    | Some e => Ok (if kltb k (fst e) then length l else i)
    end.

  (** operator==: flat_map.h 797-815. *)
  Fixpoint fm_pairwise (veqb : V -> V -> bool) (a b : list entry) : bool :=
    match a, b with
    | x :: a', y :: b' =>
        if keqb (fst x) (fst y) && veqb (snd x) (snd y) then fm_pairwise veqb a' b' else false
    | _, _ => true
    end.
  Definition fm_eqb (veqb : V -> V -> bool) (a b : list entry) : bool :=
    if negb (length a =? length b) then false else fm_pairwise veqb a b.

  (** std::sort with comp: insertion sort; equals any sort when keys are distinct (the order of
      equal keys, unspecified in C++, is here the original order). *)
  Fixpoint ins_sorted (x : entry) (l : list entry) : list entry :=
    match l with
    | [] => [x]
    | y :: r => if kltb (fst y) (fst x) then y :: ins_sorted x r else x :: l
    end.
  Definition fm_sort (l : list entry) : list entry := fold_right ins_sorted [] l.

  (** filter_unique: flat_map.h 776-794, on a sorted vector: one entry per run of equal keys, the
      first one, folded with [collision] over the others of the run. Reads [*first] unchecked. *)
  Fixpoint fu_run (coll : V -> V -> V) (cur : entry) (l : list entry) : list entry :=
    match l with
    | [] => [cur]
    | e :: r => if kltb (fst cur) (fst e) then cur :: fu_run coll e r
                else fu_run coll (fst cur, coll (snd cur) (snd e)) r
    end.
  Definition filter_unique (coll : V -> V -> V) (l : list entry) : result (list entry) :=
    match l with [] => UB | e :: r => Ok (fu_run coll e r) end.

  (** Constructor from a range / initializer list: flat_map.h 149-166, 174-197. *)
  Definition fm_of_range (l : list entry) : result (list entry) :=
    filter_unique (fun a _ => a) (fm_sort l).

  (** ** Range insertion, flat_map.h 350-425. *)
  Section Range.
    Variable coll : V -> V -> V.    (* collision(this_value, source_value): the new this_value *)
    Variable nocoll : V -> V.       (* nocollision(value) *)

    (** First loop 359-371: number of source entries minus collisions; [look] is the rest of the
        vector from the running iterator. *)
    Fixpoint count_new (look : list entry) (src : list entry) (n1 : nat) : nat :=
      match src with
      | [] => n1
      | s :: src' =>
          let look' := skipn (lower_bound (fst s) look) look in
          match look' with
          | [] => n1
          | e :: _ => if kltb (fst s) (fst e) then count_new look' src' n1
                      else count_new look' src' (n1 - 1)
          end
      end.

    Definition on_snd (f : V -> V) (e : entry) : entry := (fst e, f (snd e)).

    (** State of the merging loop: the vector is  pre ++ gap cells ++ post  where
        [look] = end of pre, [move_to_end] = start of post, and [src] is [first,last).
        (Simplification: the gap cells, which hold moved-from values, are only counted;
        writing more than [gap] cells would overwrite pre and is reported as UB.) *)
    Record mstate := MS { pre : list entry; gap : nat; post : list entry; src : list entry }.

    Inductive mres := MDone (m : mstate) | MCont (m : mstate) | MBad.

    (** One iteration 379-413. *)
    Definition merge_iter (m : mstate) : mres :=
      match nth_error (pre m) (length (pre m) - 1) with
      | None => MBad
      | Some x =>
          (* part A *)
          let la := lower_bound (fst x) (src m) in
          let fc := match nth_error (src m) la with
                    | Some s => negb (kltb (fst x) (fst s)) | None => false end in
          let copied := skipn (la + if fc then 1 else 0) (src m) in
          if gap m <? length copied then MBad else
          let gap1 := gap m - length copied in
          let post1 := map (on_snd nocoll) copied ++ post m in
          let pre2 := if fc then firstn (length (pre m) - 1) (pre m) else pre m in
          let post2 := if fc then
                         match nth_error (src m) la with
                         | Some s => (fst x, coll (snd x) (snd s)) :: post1
                         | None => post1 end
                       else post1 in
          let src2 := firstn la (src m) in
          (* part B *)
          match nth_error src2 (length src2 - 1) with
          | None => MDone (MS pre2 gap1 post2 src2)
          | Some y =>
              let lb := lower_bound (fst y) pre2 in
              let post3 := skipn lb pre2 ++ post2 in
              let pre3 := firstn lb pre2 in
              match post3 with
              | [] => MBad     (* *move_to_end with move_to_end == end() *)
              | e :: post' =>
                  if kltb (fst y) (fst e) then MCont (MS pre3 gap1 post3 src2)
                  else MCont (MS pre3 gap1 ((fst e, coll (snd e) (snd y)) :: post')
                                 (firstn (length src2 - 1) src2))
              end
          end
      end.

    Fixpoint merge_loop (fuel : nat) (m : mstate) : mres :=
      match pre m, src m with
      | [], _ => MDone m
      | _, [] => MDone m
      | _, _ =>
          match fuel with
          | 0 => MBad
          | S fuel' =>
              match merge_iter m with
              | MCont m' => merge_loop fuel' m'
              | r => r
              end
          end
      end.

    (** Whole function, 350-425 (the tail 415-423 included: what is left of the source is copied in
        front, and nocollision is applied to everything in [begin, move_to_end)).  Leftover or
        missing gap cells (excluded by the assert of 417-419) are reported as UB. *)
    Definition fm_insert_range (l source : list entry) : result (list entry) :=
      let n1 := count_new l source (length source) in
      match merge_loop (length l + length source) (MS l n1 [] source) with
      | MDone m =>
          match src m with
          | [] => if gap m =? 0 then Ok (map (on_snd nocoll) (pre m) ++ post m) else UB
          | _ => if (length (pre m) =? 0) && (gap m =? length (src m))
                 then Ok (map (on_snd nocoll) (src m) ++ post m) else UB
          end
      | _ => UB
      end.
  End Range.

  (** merge(const source&, collision, nocollision): flat_map.h 602-612. *)
  Definition fm_merge (coll : V -> V -> V) (nocoll : V -> V) (l source : list entry) :=
    fm_insert_range coll nocoll l source.
  (** merge(source&&, collision, nocollision): flat_map.h 619-643.  [cap] is source.capacity():
      when it is large enough the contents are swapped and the old content is inserted in the source's. *)
  Definition fm_merge_rvalue (coll : V -> V -> V) (nocoll : V -> V) (cap : nat) (l source : list entry) :=
    if length source + length l <=? cap
    then fm_insert_range (fun a b => coll b a) nocoll source l
    else fm_insert_range coll nocoll l source.
End FlatMap.
