(** Model of the type-erased quantities [any_quantity] and of references to them ([any_quantity_ref], [any_quantity_cref]),
    include/Conserved/Composite/cquantity.h and quantity_impl.h. Model only. The objects owned by [unique_ptr]s are cells of a heap; a freed cell is
    never used again. A program is a list of operations on variables and references; constructors append a variable. A program that names a variable or
    a reference that was not declared has no meaning in C++: [UB] stands for it. Failures of allocations are not modelled. *)
From Verif Require Import Base Quantity.
Set Implicit Arguments.

(** The instances of the template [quantity<Groups...>] (quantity_impl.h:116-183), each with its operations; [f_dec]: which of them are the same type. [f_one] is
    [quantity<C<1>>]. *)
Record family := {
  f_ty : Type;
  f_dec : forall a b : f_ty, {a = b} + {a <> b};
  f_grp : f_ty -> abgroup;
  f_one : f_ty
}.

Section E.
  Variable F : family.
  (** An object of a class derived from [vquantity]. *)
  Definition qv : Type := {t : f_ty F & f_grp F t}.
  Definition ty (v : qv) : f_ty F := projT1 v.
  (** [dynamic_cast<const quantity<T...> &>(v)] *)
  Definition cast (t : f_ty F) (v : qv) : option (f_grp F t) :=
    match f_dec F (projT1 v) t with left e => Some (eq_rect _ (fun t => f_grp F t) (projT2 v) t e) | right _ => None end.
  (** A binary virtual function of the first object: quantity_impl.h:234-238, 261-271, 300-304, 310-356. *)
  Definition virt {A} (f : forall t, f_grp F t -> f_grp F t -> A) (v w : qv) : result A :=
    match cast (ty v) w with Some y => Ok (f (ty v) (projT2 v) y) | None => Throw BadCast end.
  (** sources/any_quantity.cpp:19: [quantity<conserved::C<1>>()] *)
  Definition q_default : qv := existT _ (f_one F) (qe (f_grp F (f_one F))).
  Definition q_op (v w : qv) : result qv := virt (fun t x y => existT _ t (qop (f_grp F t) x y)) v w.
  Definition q_inv (v : qv) : qv := existT _ (ty v) (qinv (f_grp F (ty v)) (projT2 v)).
  Definition q_neutral (v : qv) : qv := existT _ (ty v) (qe (f_grp F (ty v))).

  (** Variables own a cell, or none once they were moved from. *)
  Record st := mkS { heap : list (option qv); vars : list (option nat); refs : list nat }.
  Inductive outcome := Done (s : st) | Thrown (e : exn) (s : st) | Undef.
  Definition load (s : st) (p : nat) : result qv := match nth_error (heap s) p with Some (Some v) => Ok v | _ => UB end.
  Definition put (s : st) (p : nat) (c : option qv) : st := mkS (upd (heap s) p c) (vars s) (refs s).
  Definition alloc (s : st) (v : qv) : st := mkS (heap s ++ [Some v]) (vars s) (refs s).
  Definition fresh (s : st) : nat := length (heap s).
  Definition set_var (s : st) (i : nat) (p : option nat) : st := mkS (heap s) (upd (vars s) i p) (refs s).
  Definition new_var (s : st) (p : option nat) : st := mkS (heap s) (vars s ++ [p]) (refs s).
  (** The destructor of a [unique_ptr]: [delete] of a cell, unless it is null; of a cell that was deleted before: undefined. *)
  Definition release (s : st) (p : option nat) : outcome :=
    match p with Some p => match load s p with Ok _ => Done (put s p None) | _ => Undef end | None => Done s end.

  Inductive arg := Var (i : nat) | Ref (r : nat).
  (** [impl.get()] *)
  Definition own (s : st) (i : nat) : result (option nat) := match nth_error (vars s) i with Some p => Ok p | None => UB end.
  (** cquantity.h:248-249: the conversion of a variable to a reference dereferences its pointer. *)
  Definition addr (s : st) (a : arg) : result nat :=
    match a with
    | Var i => do p <- own s i ; match p with Some p => Ok p | None => UB end
    | Ref r => match nth_error (refs s) r with Some p => Ok p | None => UB end
    end.
  (** Two objects given to a virtual function, the result of which is written in the first, or in the second. *)
  Definition both (s : st) (a b : arg) (f : qv -> qv -> result qv) (first : bool) : outcome :=
    match (do p <- addr s a ; do q <- addr s b ; do v <- load s p ; do w <- load s q ; Ok (p, q, v, w)) with
    | Ok (p, q, v, w) =>
        match f v w with Ok x => Done (put s (if first then p else q) (Some x)) | Throw e => Thrown e s | UB => Undef end
    | Throw e => Thrown e s
    | UB => Undef
    end.
  Definition andthen (o : outcome) (k : st -> outcome) : outcome := match o with Done s => k s | Thrown e s => Thrown e s | Undef => Undef end.
  Definition the {A} (s : st) (r : result A) (k : A -> outcome) : outcome := match r with Ok a => k a | Throw e => Thrown e s | UB => Undef end.
  (** A temporary [any_quantity] with value [v]: [work] is done on it, then its value is cloned into a new variable (the constructor from [const vquantity &],
      cquantity.h:48), and it is destroyed, also when [work] throws. *)
  Definition via_temporary (s : st) (v : qv) (work : st -> nat -> outcome) : outcome :=
    let t := fresh s in
    match work (alloc s v) t with
    | Done s1 => the s1 (load s1 t) (fun x => release (new_var (alloc s1 x) (Some (fresh s1))) (Some t))
    | Thrown e s1 => andthen (release s1 (Some t)) (Thrown e)
    | Undef => Undef
    end.
  (** The value copied by the copy constructor (cquantity.h:82-85): that of [C<1>(0)] for a variable that was moved from. *)
  Definition copied (s : st) (i : nat) : result qv := do p <- own s i ; match p with Some p => load s p | None => Ok q_default end.
  (** The pointer of variable [i] is moved into a new variable (cquantity.h:88). *)
  Definition move_out (s : st) (i : nat) : outcome := the s (own s i) (fun p => Done (new_var (set_var s i None) p)).
  Definition exchange (s : st) (i j : nat) : outcome := the s (own s i) (fun p => the s (own s j) (fun q => Done (set_var (set_var s i q) j p))).

  Inductive op :=
  | NewVal (v : qv) | NewDefault | NewRef (a : arg) | NewCopy (i : nat) | NewMove (i : nat)
  | AssignCopy (i j : nat) | AssignMove (i j : nat) | AssignRef (i : nat) (a : arg) | SwapVar (i j : nat) | SwapRef (a b : arg)
  | SetRef (r : nat) (a : arg) | OpEq (a b : arg) | OpCond (a b : arg) (c : bool) | InvIn (a : arg)
  | Mul (a b : arg) | MulTo (a : arg) (j : nat) | MulFrom (i : nat) (b : arg) | Inv (a : arg) | InvFrom (i : nat) | Neutral (a : arg)
  | TakeRef (i : nat) | Destroy (i : nat).

  Definition step (s : st) (o : op) : outcome :=
    match o with
    (** cquantity.h:62-75 *)
    | NewVal v => Done (new_var (alloc s v) (Some (fresh s)))
    (** sources/any_quantity.cpp:19 *)
    | NewDefault => Done (new_var (alloc s q_default) (Some (fresh s)))
    (** cquantity.h:48 *)
    | NewRef a => the s (do p <- addr s a ; load s p) (fun v => Done (new_var (alloc s v) (Some (fresh s))))
    (** cquantity.h:82-85; the temporary [C<1>(0)] made for a variable that was moved from is left out *)
    | NewCopy i => the s (copied s i) (fun v => Done (new_var (alloc s v) (Some (fresh s))))
    (** cquantity.h:88 *)
    | NewMove i => move_out s i
    (** cquantity.h:240-244: [*impl = *other.impl] *)
    | AssignCopy i j => both s (Var i) (Var j) (virt (fun t _ y => existT _ t y)) true
    (** cquantity.h:223-228 *)
    | AssignMove i j => exchange s i j
    (** cquantity.h:262-272: [impl = other.clone()] *)
    | AssignRef i a => the s (do p <- addr s a ; load s p) (fun v => the s (own s i) (fun old => release (set_var (alloc s v) i (Some (fresh s))) old))
    (** cquantity.h:218-222, 246 *)
    | SwapVar i j => exchange s i j
    (** cquantity.h:245, 247; quantity_impl.h:346-356 *)
    | SwapRef a b =>
        the s (do p <- addr s a ; do q <- addr s b ; do v <- load s p ; do w <- load s q ; do y <- virt (fun t _ y => existT _ t y) v w ; Ok (p, q, v, y))
          (fun '(p, q, v, y) => Done (put (put s p (Some y)) q (Some v)))
    (** quantity_impl.h:300-304 *)
    | SetRef r a => both s (Ref r) a (virt (fun t _ y => existT _ t y)) true
    (** cquantity.h:250-254, 273; quantity_impl.h:249-254, 267-271, 367-377 *)
    | OpEq a b => both s a b q_op true
    (** cquantity.h:256-260; quantity_impl.h:255-265 *)
    | OpCond a b c => both s a b (fun v w => do x <- q_op v w ; Ok (if c then x else v)) true
    (** cquantity.h:229-233; quantity_impl.h:294-299 *)
    | InvIn a => the s (do p <- addr s a ; do v <- load s p ; Ok (p, v)) (fun '(p, v) => Done (put s p (Some (q_inv v))))
    (** cquantity.h:255, 261 *)
    | Mul a b => the s (do p <- addr s a ; do q <- addr s b ; do v <- load s p ; Ok (q, v)) (fun '(q, v) =>
        via_temporary s v (fun s t => the s (do w <- load s q ; q_op v w) (fun x => Done (put s t (Some x)))))
    (** cquantity.h:291-300; quantity_impl.h:284-293 *)
    | MulTo a j => andthen (both s a (Var j) q_op false) (fun s => move_out s j)
    (** cquantity.h:301-312 *)
    | MulFrom i b => andthen (both s (Var i) b q_op true) (fun s => move_out s i)
    (** cquantity.h:234 (a copy of the variable), 285-286 (a clone) *)
    | Inv a => the s (match a with Var i => copied s i | Ref _ => do p <- addr s a ; load s p end) (fun v =>
        via_temporary s v (fun s t => Done (put s t (Some (q_inv v)))))
    (** cquantity.h:235-239 *)
    | InvFrom i => the s (do p <- addr s (Var i) ; do v <- load s p ; Ok (p, v)) (fun '(p, v) => move_out (put s p (Some (q_inv v))) i)
    (** cquantity.h:191, 287; quantity_impl.h:273-277 *)
    | Neutral a => the s (do p <- addr s a ; load s p) (fun v => Done (new_var (alloc s (q_neutral v)) (Some (fresh s))))
    (** cquantity.h:248-249 *)
    | TakeRef i => the s (addr s (Var i)) (fun p => Done (mkS (heap s) (vars s) (refs s ++ [p])))
    (** cquantity.h:132: a variable leaves its scope. It may not be named again. *)
    | Destroy i => the s (own s i) (fun p => release (set_var s i None) p)
    end.

  (** A program, of which every exception is caught: the exception thrown by each of its operations, and the state it leaves. [None]: it is undefined. *)
  Fixpoint run (l : list op) (s : st) : option (list (option exn) * st) :=
    match l with
    | [] => Some ([], s)
    | o :: l =>
        match step s o with
        | Done s => option_map (fun '(t, s) => (None :: t, s)) (run l s)
        | Thrown e s => option_map (fun '(t, s) => (Some e :: t, s)) (run l s)
        | Undef => None
        end
    end.
  Definition start : st := mkS [] [] [].

  (** What a variable or a reference reads. *)
  Definition value_of (s : st) (a : arg) : result qv := do p <- addr s a ; load s p.
  (** Comparisons and distances, quantity_impl.h:105-108, 227-238, 305-345. *)
  Definition observe {A} (f : forall t, f_grp F t -> f_grp F t -> A) (s : st) (a b : arg) : result A :=
    do v <- value_of s a ; do w <- value_of s b ; virt f v w.
End E.
