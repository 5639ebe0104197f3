(** Property theorems C05-C08, C55, C56: the sorted block map (flat_map). *)
From Verif Require Import Base FlatMap SpecFlatMap FlatMapThms.

Lemma nat_order : key_order Nat.eqb Nat.ltb.
Proof.
  repeat split; intros; rewrite ?Nat.eqb_eq, ?Nat.ltb_lt, ?Nat.ltb_irrefl in *; auto; try lia.
Qed.

(** C05: any history of operations on an initially empty map never hits undefined behaviour, keeps the
    keys strictly increasing, returns exactly the outputs of the mathematical finite map, and every
    later lookup agrees with it. *)
Theorem C05_history : forall (K V : Type) (keqb kltb : K -> K -> bool), key_order keqb kltb ->
  forall (vdefault : V) (os : list (op K V)), Forall (op_wf kltb) os ->
  exists l outs, model_run keqb kltb vdefault [] os = Ok (l, outs) /\
    sorted kltb l /\
    outs = snd (spec_run keqb vdefault (fun _ => None) os) /\
    forall k, assoc keqb k l = fst (spec_run keqb vdefault (fun _ => None) os) k.
Proof. exact history. Qed.
Print Assumptions C05_history.
Example C05_ex :
  let os := [Insert 3 30; Emplace 1 10; Assign 2 20; Insert 3 31; Read nat 7; EraseIt nat 1;
             Merge [(2, 99); (5, 50)]; At nat 5; At nat 1; Contains nat 7] in
  Forall (op_wf Nat.ltb) os /\
  model_run Nat.eqb Nat.ltb 0 [] os =
    Ok ([(2, 20); (3, 30); (5, 50); (7, 0)],
        [OBool nat true; OBool nat true; OUnit nat; OBool nat false; OVal 0; OBool nat true;
         OUnit nat; OVal 50; OThrow nat; OBool nat true]).
Proof.
  cbn zeta. split; [|vm_compute; reflexivity].
  repeat (apply Forall_cons; [cbn; try exact I|]); [|apply Forall_nil].
  repeat constructor.
Qed.

(** C06.  Full claim: erase(k) removes k if present and otherwise changes nothing and returns 0.
    True when the key is present; false for every absent key. *)
Theorem C06_erase_key_partial : forall (K V : Type) (keqb kltb : K -> K -> bool), key_order keqb kltb ->
  forall (l : list (K * V)) k v, sorted kltb l -> assoc keqb k l = Some v ->
  exists l', fm_erase_key kltb l k = Ok (l', 1) /\ sorted kltb l' /\
    forall k', assoc keqb k' l' = if keqb k k' then None else assoc keqb k' l.
Proof. exact erase_key_present. Qed.
Print Assumptions C06_erase_key_partial.
Example C06_ex : fm_erase_key Nat.ltb [(1, 10); (2, 20); (3, 30)] 2 = Ok ([(1, 10); (3, 30)], 1).
Proof. reflexivity. Qed.

(** Absent key: either the end iterator is dereferenced (UB), or some other, greater, entry is removed
    and 1 is returned. *)
Theorem C06_erase_key_refuted : forall (K V : Type) (keqb kltb : K -> K -> bool), key_order keqb kltb ->
  forall (l : list (K * V)) k, sorted kltb l -> assoc keqb k l = None ->
  match fm_erase_key kltb l k with
  | UB => forall e, In e l -> kltb (fst e) k = true
  | Ok (l', n) => n = 1 /\ exists l1 e l2, l = l1 ++ e :: l2 /\ l' = l1 ++ l2 /\ kltb k (fst e) = true
  | Throw _ => False
  end.
Proof. exact erase_key_absent. Qed.
Print Assumptions C06_erase_key_refuted.
Example C06_refuted_ex : fm_erase_key Nat.ltb [(1, 10); (3, 30)] 2 = Ok ([(1, 10)], 1)
  /\ fm_erase_key Nat.ltb [(1, 10); (3, 30)] 4 = UB.
Proof. split; reflexivity. Qed.

(** C07.  Full claim: any hint gives the un-hinted result.  True for good hints (end(), an element not
    below the key, or whose successor is not below the key); false for every other hint. *)
Theorem C07_hint_partial : forall (K V : Type) (keqb kltb : K -> K -> bool), key_order keqb kltb ->
  forall (l : list (K * V)) h x, sorted kltb l -> h <= length l -> good_hint kltb l h (fst x) ->
  fm_insert_hint keqb kltb l h x = fst (fst (fm_insert keqb kltb l x)) /\
  fst (fm_emplace_hint kltb l h x) = fst (fst (fm_insert keqb kltb l x)).
Proof. exact hint_ok. Qed.
Print Assumptions C07_hint_partial.
Example C07_ex : good_hint Nat.ltb [(1, 10); (3, 30); (6, 60)] 2 5
  /\ fm_insert_hint Nat.eqb Nat.ltb [(1, 10); (3, 30); (6, 60)] 2 (5, 50) = [(1, 10); (3, 30); (5, 50); (6, 60)].
Proof. split; [right; left; exists (6, 60); auto|reflexivity]. Qed.

(** Every other hint, for a new key: insert breaks the ordering invariant, emplace drops the element. *)
Theorem C07_hint_refuted : forall (K V : Type) (keqb kltb : K -> K -> bool), key_order keqb kltb ->
  forall (l : list (K * V)) h x, sorted kltb l -> h < length l -> ~ good_hint kltb l h (fst x) ->
  assoc keqb (fst x) l = None ->
  ~ sorted kltb (fm_insert_hint keqb kltb l h x) /\ fm_emplace_hint kltb l h x = (l, false).
Proof. exact hint_bad. Qed.
Print Assumptions C07_hint_refuted.
Example C07_refuted_ex :
  fm_insert_hint Nat.eqb Nat.ltb [(1, 10); (3, 30)] 0 (5, 50) = [(1, 10); (5, 50); (3, 30)].
Proof. reflexivity. Qed.

(** C08.  Full claim: keys only in the destination are untouched.  True when nocollision does nothing, or
    when no destination key precedes every source key. *)
Theorem C08_merge_partial : forall (K V : Type) (keqb kltb : K -> K -> bool), key_order keqb kltb ->
  forall (collision : V -> V -> V) (nocollision : V -> V) (a s : list (K * V)), sorted kltb a -> sorted kltb s ->
  (forall v, nocollision v = v) \/ (forall x, In x a -> exists y, In y s /\ kltb (fst x) (fst y) = false) ->
  exists r, fm_merge kltb collision nocollision a s = Ok r /\ sorted kltb r /\
    forall k, assoc keqb k r =
      match assoc keqb k a, assoc keqb k s with
      | Some v, Some w => Some (collision v w)
      | Some v, None => Some v
      | None, Some w => Some (nocollision w)
      | None, None => None
      end.
Proof. exact merge_union. Qed.
Print Assumptions C08_merge_partial.

(** The exact result for all inputs: destination-only keys smaller than every source key are also passed
    to nocollision. *)
Theorem C08_merge_exact : forall (K V : Type) (keqb kltb : K -> K -> bool), key_order keqb kltb ->
  forall (collision : V -> V -> V) (nocollision : V -> V) (a s : list (K * V)), sorted kltb a -> sorted kltb s ->
  exists r, fm_merge kltb collision nocollision a s = Ok r /\ sorted kltb r /\
    forall k, assoc keqb k r =
      match assoc keqb k a, assoc keqb k s with
      | Some v, Some w => Some (collision v w)
      | Some v, None => Some (if forallb (fun y => kltb k (fst y)) s then nocollision v else v)
      | None, Some w => Some (nocollision w)
      | None, None => None
      end.
Proof. exact merge_exact. Qed.
Print Assumptions C08_merge_exact.
Example C08_ex : fm_merge Nat.ltb Nat.add (Nat.mul 10) [(1, 1); (3, 3); (5, 5)] [(0, 7); (3, 2); (6, 6)]
  = Ok [(0, 70); (1, 1); (3, 5); (5, 5); (6, 60)].
Proof. reflexivity. Qed.
Theorem C08_merge_refuted : exists (a s : list (nat * nat)) (collision : nat -> nat -> nat) (nocollision : nat -> nat) r,
  sorted Nat.ltb a /\ sorted Nat.ltb s /\ fm_merge Nat.ltb collision nocollision a s = Ok r /\
  assoc Nat.eqb 1 a = Some 1 /\ assoc Nat.eqb 1 s = None /\ assoc Nat.eqb 1 r = Some 10.
Proof.
  exists [(1, 1)], [(2, 2)], Nat.add, (Nat.mul 10), [(1, 10); (2, 20)].
  repeat split; repeat constructor.
Qed.
Print Assumptions C08_merge_refuted.

(** Rvalue merge: same union, but when the source's storage is reused (its capacity suffices) nocollision
    is applied to the destination's own entries instead of the source's. *)
Theorem C08_merge_rvalue_exact : forall (K V : Type) (keqb kltb : K -> K -> bool), key_order keqb kltb ->
  forall (collision : V -> V -> V) (nocollision : V -> V) cap (a s : list (K * V)), sorted kltb a -> sorted kltb s ->
  exists r, fm_merge_rvalue kltb collision nocollision cap a s = Ok r /\ sorted kltb r /\
    forall k, assoc keqb k r =
      match assoc keqb k a, assoc keqb k s with
      | Some v, Some w => Some (collision v w)
      | Some v, None =>
          if length s + length a <=? cap then Some (nocollision v)
          else Some (if forallb (fun y => kltb k (fst y)) s then nocollision v else v)
      | None, Some w =>
          if length s + length a <=? cap then Some (if forallb (fun y => kltb k (fst y)) a then nocollision w else w)
          else Some (nocollision w)
      | None, None => None
      end.
Proof. exact merge_rvalue_exact. Qed.
Print Assumptions C08_merge_rvalue_exact.

(** C55: constructing from a non-empty unsorted range with repeated keys. *)
Theorem C55_construct : forall (K V : Type) (keqb kltb : K -> K -> bool), key_order keqb kltb ->
  forall l : list (K * V), l <> [] ->
  exists r, fm_of_range kltb l = Ok r /\ sorted kltb r /\
    (forall x, In x r -> In x l) /\
    (forall x, In x l -> exists v, assoc keqb (fst x) r = Some v).
Proof. exact of_range_spec. Qed.
Print Assumptions C55_construct.
Example C55_ex : fm_of_range Nat.ltb [(40, 1); (20, 2); (40, 3); (10, 4)] = Ok [(10, 4); (20, 2); (40, 1)].
Proof. reflexivity. Qed.

(** C56: operator== on maps is equality of the contents. *)
Theorem C56_equality : forall (K V : Type) (keqb kltb : K -> K -> bool), key_order keqb kltb ->
  forall (veqb : V -> V -> bool) a b, (forall u v, veqb u v = true <-> u = v) ->
  fm_eqb keqb veqb a b = true <-> a = b.
Proof. exact eqb_spec. Qed.
Print Assumptions C56_equality.
Example C56_ex : fm_eqb Nat.eqb Nat.eqb [(1, 2); (3, 4)] [(1, 2); (3, 5)] = false.
Proof. reflexivity. Qed.
