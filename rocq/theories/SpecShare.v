(** What it means for tensors of a program to share memory, and to be left alone by an operation. *)
From Verif Require Import Base Quantity FlatMap SpecFlatMap Ring Index SpecIndex Dense BTensor SpecBTensor SpecArith Share.
Set Implicit Arguments.

Section S.
  Context {G : abgroup} {R : ring}.
  (** The memory behind a handle. *)
  Definition mem_at (h : @heap R) (i : nat) : option nat := option_map w_mem (nth_error (h_win h) i).
  (** Every window is on a memory that exists and shows its elements at different places. *)
  Definition good_heap (h : @heap R) : Prop := forall i w, nth_error (h_win h) i = Some w -> w_mem w < h_n h /\
    forall j j', in_range (w_sh w) j = true -> in_range (w_sh w) j' = true -> w_pos w j = w_pos w j' -> j = j'.
  (** Sorted blocks with handles that exist; no two blocks of one tensor share memory. *)
  Definition good_ten (h : @heap R) (x : @ten G R) : Prop :=
    sorted lexb (t_blk x) /\ (forall k i, In (k, i) (t_blk x) -> i < length (h_win h)) /\
    forall k i k' i', In (k, i) (t_blk x) -> In (k', i') (t_blk x) -> mem_at h i = mem_at h i' -> k = k'.
  Definition good (s : @st G R) : Prop := good_heap (s_heap s) /\ forall n x, nth_error (s_vars s) n = Some x -> good_ten (s_heap s) x.
  (** No block of [x] shares memory with a block of [y]. *)
  Definition apart (h : @heap R) (x y : @ten G R) : Prop := forall k i k' j, In (k, i) (t_blk x) -> In (k', j) (t_blk y) -> mem_at h i <> mem_at h j.
  (** Where they share memory they have the same handle at the same index: [y] is a copy of [x], or has nothing to do with it. *)
  Definition aligned (h : @heap R) (x y : @ten G R) : Prop := forall k i k' j, In (k, i) (t_blk x) -> In (k', j) (t_blk y) -> mem_at h i = mem_at h j -> k = k' /\ i = j.
  (** The same tensor: equal members, equal indices, equal elements. *)
  Definition same (T T' : btensor G R) : Prop := with_blocks T [] = with_blocks T' [] /\ Forall2 (fun e e' => fst e = fst e' /\ deq (snd e) (snd e')) (b_blocks T) (b_blocks T').
  (** They share memory at most at the same index. *)
  Definition cross (h : @heap R) (x y : @ten G R) : Prop := forall k i k' j, In (k, i) (t_blk x) -> In (k', j) (t_blk y) -> mem_at h i = mem_at h j -> k = k'.
  (** The tensor a variable holds, before and after. *)
  Definition unchanged (s s' : @st G R) (z : @ten G R) : Prop := same (value (s_heap s) z) (value (s_heap s') z).
  (** What a step is asked: new tensors have sorted blocks; permuted tensors are well formed and the permutation is one; the operands of a sum
      done in place share memory at most at the same index. *)
  Definition fair (s : @st G R) (o : @op G R) : Prop :=
    let two a b := forall x y, nth_error (s_vars s) a = Some x -> nth_error (s_vars s) b = Some y -> cross (s_heap s) x y in
    match o with
    | ONew T => sorted lexb (b_blocks T)
    | OPerm a p => forall x, nth_error (s_vars s) a = Some x -> valid (value (s_heap s) x) /\ exists q, names_perm (b_rank (t_meta x)) p q
    | OAddMove a b _ | OAddIn a b _ => two a b
    | OAddInMove a b _ => a <> b /\ two a b
    | _ => True
    end.
  Fixpoint fair_run (s : @st G R) (p : list op) : Prop :=
    match p with [] => True | o :: p' => fair s o /\ forall s', step s o = Ok s' -> fair_run s' p' end.
  (** The variables whose memories an operation may write to: none, its object, or its object and the tensor moved from. *)
  Definition may_write (o : @op G R) : list nat :=
    match o with OMapIn a _ | OAddIn a _ _ => [a] | OAddMove a b _ | OAddInMove a b _ => [a; b] | _ => [] end.
End S.
