(** Model of [any_quantity_vector], the vector of type-erased quantities, include/Conserved/Composite/quantity_vector.h and quantity_vector_impl.h, and of the part
    of a block tensor that holds one. Model only. A vector is null, or a list of quantities of one type ([quantity_vector<quantity<...>>] behind a
    [unique_ptr<vquantity_vector>]). A program is a list of operations on variables; constructors append a variable. Positions are given as [begin() + n].
    Capacities are not modelled. A program that names a variable that was not declared has no meaning in C++: [VUndef] stands for it. *)
From Verif Require Import Base Quantity Erased.
Set Implicit Arguments.

Section V.
  Variable F : family.
  Notation qv := (qv F).
  Definition qlist : Type := {t : f_ty F & list (f_grp F t)}.
  (** quantity_vector.h:26-28: the member [ptr] *)
  Definition vec := option qlist.
  Definition vstate := list vec.
  Inductive voutcome := VDone (s : vstate) | VThrown (e : exn) (s : vstate) | VUndef.

  (** [dynamic_cast<const S &>(val)] *)
  Definition as_elem (t : f_ty F) (v : qv) : result (f_grp F t) := match cast t v with Some x => Ok x | None => Throw BadCast end.
  (** [to_S_iterator] of the iterators of a vector, quantity_vector_impl.h:462-500: the iterators of a null vector have no arithmetic. *)
  Definition as_list (t : f_ty F) (w : vec) : result (list (f_grp F t)) :=
    match w with
    | Some (existT _ u l) => match f_dec F u t with left e => Ok (eq_rect _ (fun t => list (f_grp F t)) l t e) | right _ => Throw BadCast end
    | None => Throw BadCast
    end.

  (** ** Constructors *)
  (** quantity_vector.h:47; quantity_vector_impl.h:505-509 *)
  Definition v_count (n : nat) (v : qv) : vec := let 'existT _ t x := v in Some (existT _ t (repeat x n)).
  (** quantity_vector_impl.h:391, quantity_vector.h:199-206 *)
  Definition v_push (w : vec) (v : qv) : result vec :=
    match w with
    | Some (existT _ t l) => do x <- as_elem t v ; Ok (Some (existT _ t (l ++ [x])))
    | None => Ok (v_count 1 v)
    end.
  (** quantity_vector.h:52-59: the type is that of the first element, which an empty list has not. *)
  Definition v_init (l : list qv) : result vec :=
    match l with [] => UB | v :: _ => fold_left (fun w v => do w <- w ; v_push w v) l (Ok (v_count 0 v)) end.
  (** quantity_vector.h:45: [other.ptr->clone()] *)
  Definition v_copy (w : vec) : result vec := match w with Some l => Ok (Some l) | None => UB end.

  (** ** Observers *)
  (** [==] of [std::vector] *)
  Fixpoint vals_eqb {A} (eqb : A -> A -> bool) (l m : list A) : bool :=
    match l, m with [], [] => true | a :: l, b :: m => eqb a b && vals_eqb eqb l m | _, _ => false end.
  (** quantity_vector.h:142-145; [empty], [max_size], [capacity] and [reserve] dereference the pointer in the same way *)
  Definition v_size (w : vec) : result nat := match w with Some (existT _ _ l) => Ok (length l) | None => UB end.
  (** quantity_vector.h:86-89 *)
  Definition v_index (w : vec) (k : nat) : result qv :=
    match w with Some (existT _ t l) => match nth_error l k with Some x => Ok (existT _ t x) | None => UB end | None => UB end.
  (** quantity_vector.h:90-94 *)
  Definition v_index_const (w : vec) (k : nat) : result qv := match w with Some _ => v_index w k | None => Throw RuntimeError end.
  (** quantity_vector.h:95-104 *)
  Definition v_at (w : vec) (k : nat) : result qv :=
    match w with Some (existT _ t l) => match nth_error l k with Some x => Ok (existT _ t x) | None => Throw OutOfRange end | None => Throw RuntimeError end.
  (** quantity_vector.h:77-80; quantity_vector_impl.h:425-428, 433-436 *)
  Definition v_eq (a b : vec) : result bool :=
    match a with
    | None => Ok false
    | Some (existT _ t l) =>
        match b with
        | None => UB
        | Some _ => do m <- as_list t b ; Ok (vals_eqb (qeqb (f_grp F t)) l m)
        end
    end.
  (** [for (const_reference x : v)] with a constant vector: quantity_vector.h:239-249, 261-268, the iterators of a null vector are equal,
      quantity_vector_impl.h:98-104 *)
  Definition v_elems (w : vec) : list qv := match w with Some (existT _ t l) => map (fun x => existT _ t x) l | None => [] end.
  (** the same with a vector that is not constant: quantity_vector_impl.h:133 dereferences the null arithmetic of the iterators *)
  Definition v_loop (w : vec) : result (list qv) := match w with Some _ => Ok (v_elems w) | None => UB end.

  (** ** [permute], quantity_vector_impl.h:407-424: [out] starts as neutral elements, [p] runs over all the copied elements. *)
  Fixpoint copy_section {A} (l : list A) (s n : nat) (out : list A) (p : nat) : result (list A) :=
    match n with
    | 0 => Ok out
    | S n => match nth_error l s with
             | Some x => if p <? length out then copy_section l (S s) n (upd out p x) (S p) else UB
             | None => UB
             end
    end.
  Fixpoint copy_sections {A} (l : list A) (rep perm : list nat) (out : list A) (p : nat) : result (list A) :=
    match perm with
    | [] => Ok out
    | d :: perm =>
        match nth_error rep d with
        | Some n => do out <- copy_section l (list_sum (firstn d rep)) n out p ; copy_sections l rep perm out (p + n)
        | None => UB
        end
    end.
  (** quantity_vector.h:288-292 *)
  Definition v_permute (w : vec) (perm rep : list nat) : result vec :=
    match w with
    | None => Ok None
    | Some (existT _ t l) => do out <- copy_sections l rep perm (repeat (qe (f_grp F t)) (length l)) 0 ; Ok (Some (existT _ t out))
    end.

  (** ** Programs *)
  Inductive vop :=
  | VNew | VCount (n : nat) (v : qv) | VInit (l : list qv) | VCopy (i : nat) | VMove (i : nat) | VPermute (i : nat) (perm rep : list nat)
  | VAssign (i j : nat) | VAssignMove (i j : nat) | VSwap (i j : nat)
  | VSet (i k : nat) (v : qv) | VOp (i k : nat) (v : qv) | VPush (i : nat) (v : qv) | VPop (i : nat) | VResize (i n : nat) | VResizeV (i n : nat) (v : qv)
  | VInsert (i pos n : nat) (v : qv) | VInsertRange (i pos j first last : nat) | VErase (i first last : nat) | VClear (i : nat).

  (** The effect on a vector that is not null of the operations that change it. [others]: all the vectors, for a range of one of them. *)
  Definition on_list (others : vstate) (t : f_ty F) (l : list (f_grp F t)) (o : vop) : result (list (f_grp F t)) :=
    match o with
    (** quantity_vector.h:86-89, quantity_impl.h:300-304 *)
    | VSet _ k v => if k <? length l then do x <- as_elem t v ; Ok (upd l k x) else UB
    (** the same with [*=], quantity_impl.h:267-271 *)
    | VOp _ k v => match nth_error l k with Some y => do x <- as_elem t v ; Ok (upd l k (qop (f_grp F t) y x)) | None => UB end
    (** quantity_vector.h:199-206; quantity_vector_impl.h:391 *)
    | VPush _ v => do x <- as_elem t v ; Ok (l ++ [x])
    (** quantity_vector.h:207-211; quantity_vector_impl.h:393 *)
    | VPop _ => match l with [] => UB | _ :: _ => Ok (removelast l) end
    (** quantity_vector.h:212-216; quantity_vector_impl.h:394-398 *)
    | VResize _ n => Ok (firstn n l ++ repeat (qe (f_grp F t)) (n - length l))
    (** quantity_vector.h:217-223; quantity_vector_impl.h:399-402 *)
    | VResizeV _ n v => do x <- as_elem t v ; Ok (firstn n l ++ repeat x (n - length l))
    (** quantity_vector.h:169-178; quantity_vector_impl.h:358-365 *)
    | VInsert _ pos n v => if pos <=? length l then do x <- as_elem t v ; Ok (firstn pos l ++ repeat x n ++ skipn pos l) else UB
    (** quantity_vector.h:179-188; quantity_vector_impl.h:366-378. A range of the vector itself is undefined in C++. *)
    | VInsertRange i pos j first last =>
        match nth_error others j with
        | Some w =>
            if (i =? j) || negb (pos <=? length l) || negb (first <=? last) || negb (last <=? length (v_elems w)) then UB
            else do m <- as_list t w ; Ok (firstn pos l ++ firstn (last - first) (skipn first m) ++ skipn pos l)
        | None => UB
        end
    (** quantity_vector.h:189-198; quantity_vector_impl.h:381-389 *)
    | VErase _ first last => if (first <=? last) && (last <=? length l) then Ok (firstn first l ++ skipn last l) else UB
    (** quantity_vector.h:164-168; quantity_vector_impl.h:339-342 *)
    | VClear _ => Ok []
    | _ => UB
    end.
  (** The same operations on a null vector. *)
  Definition on_null (o : vop) : result vec :=
    match o with
    | VSet _ _ _ | VOp _ _ _ => UB
    | VPush _ v => Ok (v_count 1 v)
    | VPop _ => Throw RuntimeError
    | VResize _ _ => Throw RuntimeError
    | VResizeV _ n v => Ok (v_count n v)
    | VInsert _ pos _ _ => if pos =? 0 then Throw RuntimeError else UB
    | VInsertRange _ pos _ _ _ => if pos =? 0 then Throw RuntimeError else UB
    | VErase _ first last => if (first =? 0) && (last =? 0) then Ok None else UB
    | VClear _ => Ok None
    | _ => UB
    end.
  Definition target (o : vop) : option nat :=
    match o with
    | VSet i _ _ | VOp i _ _ | VPush i _ | VPop i | VResize i _ | VResizeV i _ _ | VInsert i _ _ _ | VInsertRange i _ _ _ _ | VErase i _ _ | VClear i => Some i
    | _ => None
    end.
  Definition modify (s : vstate) (w : vec) (o : vop) : result vec :=
    match w with
    | Some (existT _ t l) => do m <- on_list s t l o ; Ok (Some (existT _ t m))
    | None => on_null o
    end.

  Definition made (s : vstate) (r : result vec) : voutcome := match r with Ok w => VDone (s ++ [w]) | Throw e => VThrown e s | UB => VUndef end.
  Definition vec_at (s : vstate) (i : nat) : result vec := match nth_error s i with Some w => Ok w | None => UB end.
  Definition vstep (s : vstate) (o : vop) : voutcome :=
    match o with
    (** quantity_vector.h:44 *)
    | VNew => made s (Ok None)
    | VCount n v => made s (Ok (v_count n v))
    | VInit l => made s (v_init l)
    | VCopy i => made s (do w <- vec_at s i ; v_copy w)
    (** quantity_vector.h:46 *)
    | VMove i => match nth_error s i with Some w => VDone (upd s i None ++ [w]) | None => VUndef end
    | VPermute i perm rep => made s (do w <- vec_at s i ; v_permute w perm rep)
    (** quantity_vector.h:71-75: the argument is a copy *)
    | VAssign i j => match (do _ <- vec_at s i ; do w <- vec_at s j ; v_copy w) with Ok w => VDone (upd s i w) | Throw e => VThrown e s | UB => VUndef end
    (** the same with [std::move]: the argument takes the pointer, then gives it *)
    | VAssignMove i j => match nth_error s i, nth_error s j with Some _, Some w => VDone (upd (upd s j None) i w) | _, _ => VUndef end
    (** quantity_vector.h:224-228, 295-298 *)
    | VSwap i j => match nth_error s i, nth_error s j with Some a, Some b => VDone (upd (upd s i b) j a) | _, _ => VUndef end
    | _ =>
        match target o with
        | Some i => match (do w <- vec_at s i ; modify s w o) with Ok w => VDone (upd s i w) | Throw e => VThrown e s | UB => VUndef end
        | None => VUndef
        end
    end.
  Fixpoint vrun (l : list vop) (s : vstate) : option (list (option exn) * vstate) :=
    match l with
    | [] => Some ([], s)
    | o :: l =>
        match vstep s o with
        | VDone s => option_map (fun '(t, s) => (None :: t, s)) (vrun l s)
        | VThrown e s => option_map (fun '(t, s) => (Some e :: t, s)) (vrun l s)
        | VUndef => None
        end
    end.

  (** ** The quantities of block tensors, include/blockTensor/btensor.h *)
  (** btensor.h:155: the members of a default tensor are default constructed. Only [c_vals] is modelled. *)
  Definition t_default : vec := None.
  (** btensor.h:137-142 *)
  Definition t_copy (c_vals : vec) : result vec := v_copy c_vals.
  (** btensor.h:143-149: what is left of the tensor *)
  Definition t_moved (c_vals : vec) : vec := None.
  (** [std::vector<btensor>], the member of a chain of block tensors (include/MPT.h:90-120, 530): construction with a size, copies, and a reallocation, which copies
      the tensors, since their move constructor (btensor.h:143) is not [noexcept]. *)
  Definition c_sized (n : nat) : list vec := repeat t_default n.
  Fixpoint c_copy (c : list vec) : result (list vec) :=
    match c with [] => Ok [] | w :: c => do w <- t_copy w ; do c <- c_copy c ; Ok (w :: c) end.
  Definition c_realloc (c : list vec) : result (list vec) := c_copy c.
End V.
