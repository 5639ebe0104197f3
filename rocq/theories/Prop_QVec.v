(** C82: vectors of type-erased quantities are vectors of quantities of one type, unless they are null. *)
From Verif Require Import Base Quantity QuantityProofs Erased QVec SpecQVec QVecProofs QVecThms.

(** An operation that changes a vector with elements gives every element of the outcome, or throws for a quantity of another type and changes nothing, or is
    undefined where [std::vector] is. *)
Theorem C82_modifiers : forall F (s : vstate F) i w t l o, nth_error s i = Some w -> holds_list w t l -> changes o i ->
  (defined (lists_of s) l o -> well_typed (type_of s) t o ->
    exists w' l', vstep s o = VDone (upd s i w') /\ holds_list w' t l' /\ forall k, elem_after (lists_of s) t l o k (nth_error l' k)) /\
  (defined (lists_of s) l o -> ~ well_typed (type_of s) t o -> vstep s o = VThrown BadCast s) /\
  (~ defined (lists_of s) l o -> vstep s o = VUndef F).
Proof. exact modifiers. Qed.
Print Assumptions C82_modifiers.

Theorem C82_construct : forall F n (v : qv F) l,
  holds_list (v_count n v) (projT1 v) (repeat v n) /\
  (Forall (of_type (projT1 v)) l -> exists w, v_init (v :: l) = Ok w /\ holds_list w (projT1 v) (v :: l)) /\
  (~ Forall (of_type (projT1 v)) l -> v_init (v :: l) = Throw BadCast).
Proof. exact (fun F n v l => conj (count_ok n v) (init_ok v l)). Qed.
Print Assumptions C82_construct.

Theorem C82_copies : forall F (s : vstate F) i j w v t l, nth_error s i = Some v -> nth_error s j = Some w -> holds_list w t l ->
  vstep s (VCopy F j) = VDone (s ++ [w]) /\ vstep s (VAssign F i j) = VDone (upd s i w) /\ vstep s (VMove F j) = VDone (upd s j None ++ [w]) /\
  vstep s (VAssignMove F i j) = VDone (upd (upd s j None) i w) /\ vstep s (VSwap F i j) = VDone (upd (upd s i w) j v).
Proof. exact copies. Qed.
Print Assumptions C82_copies.

(** What a program can read of a vector with elements, and that two of them are equal when their elements are. *)
Theorem C82_read : forall F (w : vec F) t l, holds_list w t l ->
  (v_elems w = l /\ v_size w = Ok (length l) /\ v_loop w = Ok l /\ Forall (of_type t) l /\
   forall k, v_at w k = match nth_error l k with Some x => Ok x | None => Throw OutOfRange end /\ (forall x, nth_error l k = Some x -> v_index w k = Ok x /\ v_index_const w k = Ok x)) /\
  (forall b u m, holds_list b u m -> (t = u -> exists r, v_eq w b = Ok r /\ (r = true <-> l = m)) /\ (t <> u -> v_eq w b = Throw BadCast)).
Proof. exact (fun F w t l H => conj (read_ok H) (fun b u m Hb => eq_ok H Hb)). Qed.
Print Assumptions C82_read.

(** Nothing else changes. *)
Theorem C82_frame : forall F (s s' : vstate F) o,
  (forall k w, vstep s o = VDone s' -> nth_error s k = Some w -> ~ names o k -> nth_error s' k = Some w) /\
  (forall e, vstep s o = VThrown e s' -> s' = s).
Proof. exact (fun F s s' o => conj (fun k w => @frame F s s' o k w) (fun e => @thrown F s s' o e)). Qed.
Print Assumptions C82_frame.

(** The permutation of the sections of a tensor's conserved quantities. *)
Theorem C82_permute : forall F (w : vec F) t l perm rep, holds_list w t l -> a_permutation perm (length rep) -> list_sum rep = length l ->
  exists w' l', v_permute w perm rep = Ok w' /\ holds_list w' t l' /\ permuted l l' perm rep.
Proof. exact permute_ok. Qed.
Print Assumptions C82_permute.

(** A null vector: what works and what is reported. *)
Theorem C82_null_partial : forall F (s : vstate F) i (v : qv F) n, nth_error s i = Some None ->
  v_elems (None : vec F) = [] /\ v_index_const (None : vec F) n = Throw RuntimeError /\ v_at (None : vec F) n = Throw RuntimeError /\
  (forall perm rep, v_permute (None : vec F) perm rep = Ok None) /\
  vstep s (VPush i v) = VDone (upd s i (v_count 1 v)) /\ vstep s (VResizeV i n v) = VDone (upd s i (v_count n v)) /\
  vstep s (VClear F i) = VDone (upd s i None) /\ vstep s (VErase F i 0 0) = VDone (upd s i None) /\
  vstep s (VPop F i) = VThrown RuntimeError s /\ vstep s (VResize F i n) = VThrown RuntimeError s /\ vstep s (VInsert i 0 n v) = VThrown RuntimeError s.
Proof. exact null_ok. Qed.
Print Assumptions C82_null_partial.

(** A null vector, which is what the default constructor and a move leave: its size, its copy, the comparison with it are undefined; it is not equal to itself; a vector
    can not be made from an empty list. *)
Theorem C82_null_refuted : forall F (s : vstate F) i j (v : qv F) n (w : vec F) t l, nth_error s i = Some None -> holds_list w t l ->
  v_size (None : vec F) = UB /\ v_index (None : vec F) n = UB /\ v_loop (None : vec F) = UB /\ v_copy (None : vec F) = UB /\ v_eq w None = UB /\
  v_eq (None : vec F) None = Ok false /\ v_init ([] : list (qv F)) = UB /\
  vstep s (VCopy F i) = VUndef F /\ vstep s (VAssign F j i) = VUndef F /\ vstep s (VSet i n v) = VUndef F.
Proof. exact null_bad. Qed.
Print Assumptions C82_null_refuted.

(** Block tensors: a default tensor, or one that was moved from, can not be copied; a chain made with a size can not be copied, nor can it grow. *)
Theorem C82_tensor_refuted : forall F (n k : nat) (w : vec F) t l (c : list (vec F)), holds_list w t l ->
  t_copy w = Ok w /\ t_copy (t_default F) = UB /\ t_copy (t_moved w) = UB /\
  c_copy (c_sized F (S n)) = UB /\ c_realloc (repeat w k ++ c_sized F (S n)) = UB /\ c_copy (repeat w k) = Ok (repeat w k).
Proof. exact tensors. Qed.
Print Assumptions C82_tensor_refuted.

(** Two types. *)
Definition fam2 : family := {| f_ty := bool; f_dec := Bool.bool_dec; f_grp := fun b => if b then z_group else unit_group; f_one := false |}.
Definition q2 (x : z_group) : qv fam2 := existT (fun t => f_grp fam2 t) true x.
Definition q1 (x : unit_group) : qv fam2 := existT (fun t => f_grp fam2 t) false x.
Example C82_ex (x y z : z_group) (u : unit_group) : exists w w',
  v_init [q2 x; q2 y; q2 z] = Ok w /\ holds_list w true [q2 x; q2 y; q2 z] /\ a_permutation [1; 0] (length [1; 2]) /\ list_sum [1; 2] = length [q2 x; q2 y; q2 z] /\
  v_permute w [1; 0] [1; 2] = Ok w' /\ v_elems w' = [q2 y; q2 z; q2 x] /\
  changes (VPush 0 (q2 x)) 0 /\ well_typed (type_of [w]) true (VPush 0 (q2 x)) /\ ~ well_typed (type_of [w]) true (VPush 0 (q1 u)) /\
  defined (lists_of [w]) (v_elems w) (VErase fam2 0 1 3) /\ vstep [w] (VErase fam2 0 1 3) = VDone [v_count 1 (q2 x)].
Proof.
  eexists _, _. split; [reflexivity|]. split; [exists [x; y; z]; split; reflexivity|]. split; [repeat constructor; cbn; intuition discriminate|].
  repeat split; cbn; try (intros H; discriminate H); auto.
Qed.
