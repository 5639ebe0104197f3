(** Independent specifications for the sorted block map: finite maps as functions. *)
From Verif Require Import Base FlatMap.
From Coq Require Export Sorting.Sorted.
Set Implicit Arguments.

Section Spec.
  Variables K V : Type.
  Variable keqb : K -> K -> bool.
  Variable kltb : K -> K -> bool.

  (** A strict total order whose equality is decided by [keqb]. *)
  Definition key_order : Prop :=
    (forall a b, keqb a b = true <-> a = b) /\
    (forall a, kltb a a = false) /\
    (forall a b c, kltb a b = true -> kltb b c = true -> kltb a c = true) /\
    (forall a b, kltb a b = true \/ a = b \/ kltb b a = true).

  (** Strictly increasing keys. *)
  Definition sorted (l : list (K * V)) : Prop :=
    StronglySorted (fun a b => kltb (fst a) (fst b) = true) l.

  (** Association-list lookup: the finite map a list of entries denotes. *)
  Fixpoint assoc (k : K) (l : list (K * V)) : option V :=
    match l with
    | [] => None
    | e :: r => if keqb (fst e) k then Some (snd e) else assoc k r
    end.

  (** A good hint: end(), an element not below the key, or an element whose successor is not below it. *)
  Definition good_hint (l : list (K * V)) (h : nat) (k : K) : Prop :=
    h = length l \/
    (exists e, nth_error l h = Some e /\ kltb (fst e) k = false) \/
    (h < length l /\ forall e, nth_error l (S h) = Some e -> kltb (fst e) k = false).

  (** ** Mathematical finite maps *)
  Definition fmap := K -> option V.
  Definition fset (m : fmap) (k : K) (v : V) : fmap := fun k' => if keqb k k' then Some v else m k'.
  Definition fdel (m : fmap) (k : K) : fmap := fun k' => if keqb k k' then None else m k'.
  Definition funion (m : fmap) (s : fmap) : fmap :=
    fun k => match m k with Some v => Some v | None => s k end.

  (** Operations of a client of the map, and what it observes. *)
  Inductive op : Type :=
  | Insert (k : K) (v : V)          (* m.insert({k,v}).second *)
  | Emplace (k : K) (v : V)         (* m.emplace(k,v).second *)
  | Assign (k : K) (v : V)          (* m[k] = v *)
  | Read (k : K)                    (* m[k] *)
  | At (k : K)                      (* m.at(k) *)
  | Contains (k : K)                (* m.contains(k) *)
  | EraseIt (k : K)                 (* it = m.find(k); if (it != m.end()) m.erase(it) *)
  | Clear                           (* m.clear() *)
  | Merge (s : list (K * V)).       (* m.merge(s), s a sorted map: this map's values win *)

  Inductive out : Type := OUnit | OBool (b : bool) | OVal (v : V) | OThrow.

  Variable vdefault : V.

  (** Specification: what a mathematical finite map does. *)
  Definition spec_step (m : fmap) (o : op) : fmap * out :=
    let present k := match m k with Some _ => true | None => false end in
    match o with
    | Insert k v => if present k then (m, OBool false) else (fset m k v, OBool true)
    | Emplace k v => if present k then (m, OBool false) else (fset m k v, OBool true)
    | Assign k v => (fset m k v, OUnit)
    | Read k => match m k with Some v => (m, OVal v) | None => (fset m k vdefault, OVal vdefault) end
    | At k => (m, match m k with Some v => OVal v | None => OThrow end)
    | Contains k => (m, OBool (present k))
    | EraseIt k => (fdel m k, OBool (present k))
    | Clear => (fun _ => None, OUnit)
    | Merge s => (funion m (fun k => assoc k s), OUnit)
    end.
  Fixpoint spec_run (m : fmap) (os : list op) : fmap * list out :=
    match os with
    | [] => (m, [])
    | o :: r => let (m1, x) := spec_step m o in let (m2, xs) := spec_run m1 r in (m2, x :: xs)
    end.

  (** The same client run on the modelled code. *)
  Definition model_step (l : list (K * V)) (o : op) : result (list (K * V) * out) :=
    match o with
    | Insert k v => let '(l', _, b) := fm_insert keqb kltb l (k, v) in Ok (l', OBool b)
    | Emplace k v => let '(l', _, b) := fm_emplace kltb l (k, v) in Ok (l', OBool b)
    | Assign k v => Ok (fm_subscript_assign kltb vdefault l k v, OUnit)
    | Read k => let (l', i) := fm_subscript kltb vdefault l k in
                match nth_error l' i with Some e => Ok (l', OVal (snd e)) | None => UB end
    | At k => match fm_at kltb l k with Ok v => Ok (l, OVal v) | Throw _ => Ok (l, OThrow) | UB => UB end
    | Contains k => Ok (l, OBool (fm_contains kltb l k))
    | EraseIt k => let i := fm_find kltb l k in
                   if i =? length l then Ok (l, OBool false)
                   else do l' <- fm_erase_pos l i; Ok (l', OBool true)
    | Clear => Ok ([], OUnit)
    | Merge s => do l' <- fm_merge kltb (fun a _ => a) (fun a => a) l s; Ok (l', OUnit)
    end.
  Fixpoint model_run (l : list (K * V)) (os : list op) : result (list (K * V) * list out) :=
    match os with
    | [] => Ok (l, [])
    | o :: r => do (l1, x) <- model_step l o; do (l2, xs) <- model_run l1 r; Ok (l2, x :: xs)
    end.

  Definition op_wf (o : op) : Prop := match o with Merge s => sorted s | _ => True end.
End Spec.
