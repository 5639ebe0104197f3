(** What vectors of type-erased quantities should do, element by element. *)
From Verif Require Import Base Quantity Erased QVec.
Set Implicit Arguments.

Section SQ.
  Variable F : family.
  Notation qv := (qv F).

  (** A vector that holds quantities of type [t], with the given elements. *)
  Definition holds_list (w : vec F) (t : f_ty F) (l : list qv) : Prop :=
    exists m : list (f_grp F t), w = Some (existT _ t m) /\ l = map (fun x => existT (fun t => f_grp F t) t x) m.
  Definition of_type (t : f_ty F) (v : qv) : Prop := projT1 v = t.
  Definition neutral_elem (t : f_ty F) : qv := existT _ t (qe (f_grp F t)).
  Definition product_of (v u x : qv) : Prop :=
    exists t (a b : f_grp F t), v = existT _ t a /\ u = existT _ t b /\ x = existT _ t (qop (f_grp F t) a b).

  (** The vector whose elements an operation changes. *)
  Definition changes (o : vop F) (i : nat) : Prop :=
    match o with
    | VSet j _ _ | VOp j _ _ | VPush j _ | VPop _ j | VResize _ j _ | VResizeV j _ _ | VInsert j _ _ _ | VInsertRange _ j _ _ _ _ | VErase _ j _ _ | VClear _ j => i = j
    | _ => False
    end.
  (** All the vectors an operation may change. *)
  Definition names (o : vop F) (k : nat) : Prop :=
    match o with
    | VMove _ i | VAssign _ i _ => k = i
    | VAssignMove _ i j | VSwap _ i j => k = i \/ k = j
    | _ => changes o k
    end.
  (** When an operation on a vector with elements [l] is defined in C++; [vs] gives the elements of all the vectors. *)
  Definition defined (vs : list (list qv)) (l : list qv) (o : vop F) : Prop :=
    match o with
    | VSet _ k _ | VOp _ k _ => k < length l
    | VPop _ _ => l <> []
    | VInsert _ pos _ _ => pos <= length l
    | VInsertRange _ i pos j first last => i <> j /\ pos <= length l /\ first <= last /\ exists m, nth_error vs j = Some m /\ last <= length m
    | VErase _ _ first last => first <= last /\ last <= length l
    | VPush _ _ | VResize _ _ _ | VResizeV _ _ _ | VClear _ _ => True
    | _ => False
    end.
  (** When the operation is given quantities of type [t] only: [w j] is the type of vector [j], if it has one. *)
  Definition well_typed (w : nat -> option (f_ty F)) (t : f_ty F) (o : vop F) : Prop :=
    match o with
    | VSet _ _ v | VOp _ _ v | VPush _ v | VResizeV _ _ v | VInsert _ _ _ v => of_type t v
    | VInsertRange _ _ _ j _ _ => w j = Some t
    | _ => True
    end.
  (** Element number [k] of the vector after the operation. *)
  Definition elem_after (vs : list (list qv)) (t : f_ty F) (l : list qv) (o : vop F) (k : nat) (x : option qv) : Prop :=
    match o with
    | VSet _ n v => x = if k =? n then Some v else nth_error l k
    | VOp _ n v => if k =? n then exists y z, nth_error l k = Some y /\ product_of y v z /\ x = Some z else x = nth_error l k
    | VPush _ v => x = if k =? length l then Some v else nth_error l k
    | VPop _ _ => x = if S k <? length l then nth_error l k else None
    | VResize _ _ n => x = if k <? n then (if k <? length l then nth_error l k else Some (neutral_elem t)) else None
    | VResizeV _ n v => x = if k <? n then (if k <? length l then nth_error l k else Some v) else None
    | VInsert _ pos n v => x = if k <? pos then nth_error l k else if k <? pos + n then Some v else nth_error l (k - n)
    | VInsertRange _ _ pos j first last =>
        exists m, nth_error vs j = Some m /\
        x = if k <? pos then nth_error l k else if k <? pos + (last - first) then nth_error m (first + (k - pos)) else nth_error l (k - (last - first))
    | VErase _ _ first last => x = if k <? first then nth_error l k else nth_error l (k + (last - first))
    | VClear _ _ => x = None
    | _ => False
    end.

  Definition lists_of (s : vstate F) : list (list qv) := map (@v_elems F) s.
  Definition type_of (s : vstate F) (j : nat) : option (f_ty F) := match nth_error s j with Some (Some (existT _ t _)) => Some t | _ => None end.

  (** [perm] lists the numbers below [n] once each. *)
  Definition a_permutation (perm : list nat) (n : nat) : Prop := length perm = n /\ NoDup perm /\ Forall (fun d => d < n) perm.
  (** The number of elements of the sections listed. *)
  Definition extent (rep : list nat) (ds : list nat) : nat := list_sum (map (fun d => nth d rep 0) ds).
  (** Section number [d] of the old vector starts after the sections before it; in the new one the sections are in the order of [perm]. *)
  Definition permuted (l l' : list qv) (perm rep : list nat) : Prop :=
    length l' = length l /\
    forall a d i, nth_error perm a = Some d -> i < nth d rep 0 ->
      nth_error l' (extent rep (firstn a perm) + i) = nth_error l (extent rep (seq 0 d) + i).
End SQ.
