(** Block tensors that share memory: what operations change and what they leave alone (C86). *)
From Verif Require Import Base Quantity QuantityProofs FlatMap SpecFlatMap Ring Index SpecIndex Dense BTensor SpecBTensor BTensorEx SpecArith BTensorArith Share SpecShare ShareThms ShareOps ShareEx.

(** C86. Full claim: an operation gives the tensor it says and changes the elements of its object at most, when it is done in place; other variables
    change only if they are copies of the object, in the blocks they have in common. For every state of a program: variables that are copies or
    views of each other, with no two blocks of one tensor on the same memory ([good], which all states of programs are: [C86_states]).
    [a.add(b, alpha)]: the sum of C19 and C20 in memories of its own, all variables as before, or its exception. *)
Theorem C86_add : forall G R (s : @st G R) a b x y alpha, good s -> nth_error (s_vars s) a = Some x -> nth_error (s_vars s) b = Some y ->
  match bt_add (value (s_heap s) x) (value (s_heap s) y) alpha with
  | Ok T => exists s' z, step s (OAdd a b alpha) = Ok s' /\ good s' /\ s_vars s' = s_vars s ++ [z] /\ same T (value (s_heap s') z) /\
      forall n w, nth_error (s_vars s) n = Some w -> unchanged s s' w /\ apart (s_heap s') z w
  | Throw e => step s (OAdd a b alpha) = Throw e
  | UB => step s (OAdd a b alpha) = UB
  end.
Proof. exact @add_ok. Qed.
Print Assumptions C86_add.
Example C86_add_ex : (exists s x y w T, runs start news = Ok s /\ good s /\ s_vars s = [x; y; w] /\ cross (s_heap s) y x /\ bt_add (value (s_heap s) y) (value (s_heap s) x) 2%Z = Ok T /\
    bt_add_rvalue (value (s_heap s) y) (value (s_heap s) x) 2%Z = Ok T) /\
  after (news ++ [OCopy 0; zadd 0 1 2%Z]) = Ok [vA; vB; vC; vA; [([0; 0], [6; 8]%Z); ([1; 1], [19; 22]%Z)]].
Proof. split; [exact news_state|exact ex_add]. Qed.
(** [mul(Scalar)], [sqrt], [abs], [pow(Scalar)] and new tensors: memories of their own, all variables as before. *)
Theorem C86_map : forall G R (s : @st G R) a x f, good s -> nth_error (s_vars s) a = Some x ->
  exists s' z, step s (OMap a f) = Ok s' /\ good s' /\ s_vars s' = s_vars s ++ [z] /\ same (map_blocks (d_map f) (value (s_heap s) x)) (value (s_heap s') z) /\
    forall n w, nth_error (s_vars s) n = Some w -> unchanged s s' w /\ apart (s_heap s') z w.
Proof. exact @map_ok. Qed.
Print Assumptions C86_map.
(** ... *)
Theorem C86_new : forall G R (s : @st G R) T, good s -> sorted lexb (b_blocks T) ->
  exists s' z, step s (ONew T) = Ok s' /\ good s' /\ s_vars s' = s_vars s ++ [z] /\ same T (value (s_heap s') z) /\
    forall n w, nth_error (s_vars s) n = Some w -> unchanged s s' w /\ apart (s_heap s') z w.
Proof. exact @new_ok. Qed.
Print Assumptions C86_new.
(** [mul_(Scalar)] and the like: the function on the elements of the object; blocks on other memories are as before, and every variable that has the
    handle of a block of the object sees the change. *)
Theorem C86_map_in : forall G R (s : @st G R) a x f, good s -> nth_error (s_vars s) a = Some x ->
  exists s', step s (OMapIn a f) = Ok s' /\ good s' /\ s_vars s' = s_vars s /\ same (map_blocks (d_map f) (value (s_heap s) x)) (value (s_heap s') x) /\
    (forall k i, In (k, i) (t_blk x) -> deq (d_map f (read (s_heap s) i)) (read (s_heap s') i)) /\
    (forall i, (forall k i', In (k, i') (t_blk x) -> mem_at (s_heap s) i' <> mem_at (s_heap s) i) -> deq (read (s_heap s) i) (read (s_heap s') i)).
Proof. exact @mapin_ok. Qed.
Print Assumptions C86_map_in.
Example C86_map_in_ex : after (news ++ [OCopy 0; zmap 0 (Z.mul 3); zmap_in 0 (Z.mul 2)]) =
  Ok [[([0; 0], [6; 8]%Z); ([1; 1], [10; 12]%Z)]; vB; vC; [([0; 0], [6; 8]%Z); ([1; 1], [10; 12]%Z)]; [([0; 0], [9; 12]%Z); ([1; 1], [15; 18]%Z)]].
Proof. exact ex_map_in. Qed.
(** [permute]: the tensor of C17, all variables as before, but every block is another handle on the memory of the block it comes from. *)
Theorem C86_permute : forall G R (s : @st G R) a x p r, good s -> nth_error (s_vars s) a = Some x -> valid (value (s_heap s) x) -> names_perm (b_rank (t_meta x)) p r ->
  exists T s' z, permute (value (s_heap s) x) p = Ok T /\ step s (OPerm a p) = Ok s' /\ good s' /\ s_vars s' = s_vars s ++ [z] /\ value (s_heap s') z = T /\
    (forall k i, In (k, i) (t_blk x) -> exists n, In (gather 0 r k, n) (t_blk z) /\ n <> i /\ mem_at (s_heap s') n = mem_at (s_heap s') i) /\
    forall n w, nth_error (s_vars s) n = Some w -> unchanged s s' w.
Proof. exact @perm_ok. Qed.
Print Assumptions C86_permute.
Example C86_permute_ex : fair_run start prog_view /\ after prog_view = Ok [vB; vB; []].
Proof. split; [exact view_fair|apply ex_view]. Qed.
(** [a.add_(b, alpha)], when [a] and [b] share memory at most at the same indices: the object becomes the sum; its blocks common with [b] keep their
    handles and hold the sum for every variable that has them; blocks on other memories are as before. *)
Theorem C86_add_in : forall G R (s : @st G R) a b x y alpha T, good s -> nth_error (s_vars s) a = Some x -> nth_error (s_vars s) b = Some y -> cross (s_heap s) x y ->
  bt_add (value (s_heap s) x) (value (s_heap s) y) alpha = Ok T ->
  exists s' z, step s (OAddIn a b alpha) = Ok s' /\ good s' /\ s_vars s' = upd (s_vars s) a z /\ same T (value (s_heap s') z) /\
    (forall k i j, In (k, i) (t_blk x) -> In (k, j) (t_blk y) -> In (k, i) (t_blk z) /\ deq (d_axpy alpha (read (s_heap s) i) (read (s_heap s) j)) (read (s_heap s') i)) /\
    (forall i, i < length (h_win (s_heap s)) -> (forall k i' j, In (k, i') (t_blk x) -> In (k, j) (t_blk y) -> mem_at (s_heap s) i' <> mem_at (s_heap s) i) -> deq (read (s_heap s) i) (read (s_heap s') i)).
Proof. exact @addin_ok. Qed.
Print Assumptions C86_add_in.
Example C86_add_in_ex : after (news ++ [OCopy 1; zadd_in 1 0 2%Z]) = Ok [vA; [([0; 0], [6; 8]%Z); ([1; 1], [17; 20]%Z)]; vC; [([1; 1], [17; 20]%Z)]].
Proof. exact ex_add_in. Qed.
(** [a.add_(std::move(b), alpha)]: the object becomes the sum and [b] is empty. Partial: other variables are as before if they share no memory with
    the object and, with [b], only handles at the same indices. Views of [b] are missing: [C86_view_refuted]. *)
Theorem C86_add_in_move_partial : forall G R (s : @st G R) a b x y alpha T, good s -> a <> b -> nth_error (s_vars s) a = Some x -> nth_error (s_vars s) b = Some y -> cross (s_heap s) x y ->
  bt_add (value (s_heap s) x) (value (s_heap s) y) alpha = Ok T ->
  exists s' z, step s (OAddInMove a b alpha) = Ok s' /\ good s' /\ s_vars s' = upd (upd (s_vars s) b (mkT (t_meta y) [])) a z /\ same T (value (s_heap s') z) /\
    (forall n w, n <> b -> nth_error (s_vars s) n = Some w -> apart (s_heap s) w x -> aligned (s_heap s) w y -> unchanged s s' w).
Proof. exact @addinmove_ok. Qed.
Print Assumptions C86_add_in_move_partial.
Example C86_add_in_move_ex : after (news ++ [OCopy 0; zadd_in_move 1 0 2%Z]) = Ok [[]; [([0; 0], [6; 8]%Z); ([1; 1], [17; 20]%Z)]; vC; vA].
Proof. exact ex_add_in_move. Qed.
(** [D -= B.permute({1, 0})]: the temporary has the only handle to its window, so it is multiplied in place; its memory is that of [B], a variable that
    the statement only reads. *)
Theorem C86_view_refuted : exists (s s' : zs) b, fair_run start prog_view /\ runs start prog_view = Ok s /\ good s /\ fair s (zadd_in_move 2 1 (-1)%Z) /\ step s (zadd_in_move 2 1 (-1)%Z) = Ok s' /\
  nth_error (s_vars s) 0 = Some b /\ ~ unchanged s s' b.
Proof. exact view_changes. Qed.
Print Assumptions C86_view_refuted.
Example C86_view_ex : after (prog_view ++ [zadd_in_move 2 1 (-1)%Z]) = Ok [[([1; 1], [-7; -8]%Z)]; []; [([1; 1], [-7; -8]%Z)]].
Proof. apply ex_view. Qed.
(** [a.add(std::move(b), alpha) const]: the sum is right and variables that share no memory with [a] and [b] are as before. Partial: the object, which
    the method is declared not to modify, holds the sum in every block it has in common with [b]. *)
Theorem C86_add_move_partial : forall G R (s : @st G R) a b x y alpha T, good s -> nth_error (s_vars s) a = Some x -> nth_error (s_vars s) b = Some y -> cross (s_heap s) x y ->
  bt_add_rvalue (value (s_heap s) x) (value (s_heap s) y) alpha = Ok T ->
  exists s' z, step s (OAddMove a b alpha) = Ok s' /\ good s' /\ s_vars s' = s_vars s ++ [z] /\ same T (value (s_heap s') z) /\
    (forall k i j, In (k, i) (t_blk x) -> In (k, j) (t_blk y) -> In (k, i) (t_blk z) /\ deq (d_axpy alpha (read (s_heap s) i) (read (s_heap s) j)) (read (s_heap s') i)) /\
    (forall n w, nth_error (s_vars s) n = Some w -> apart (s_heap s) w x -> apart (s_heap s) w y -> unchanged s s' w).
Proof. exact @addmove_ok. Qed.
Print Assumptions C86_add_move_partial.
Example C86_add_move_ex : after (news ++ [zadd_move 1 0 2%Z]) = Ok [[([0; 0], [6; 8]%Z); ([1; 1], [5; 6]%Z)]; [([1; 1], [17; 20]%Z)]; vC; [([0; 0], [6; 8]%Z); ([1; 1], [17; 20]%Z)]].
Proof. exact ex_add_move. Qed.
(** ... so the object is not as before. *)
Theorem C86_add_move_refuted : exists (s s' : zs) y, runs start news = Ok s /\ fair s (zadd_move 1 0 2%Z) /\ step s (zadd_move 1 0 2%Z) = Ok s' /\ nth_error (s_vars s) 1 = Some y /\ ~ unchanged s s' y.
Proof. exact add_move_changes. Qed.
Print Assumptions C86_add_move_refuted.
(** Any operation changes only variables that share memory with those it may write to. *)
Theorem C86_frame : forall G R (s : @st G R) o s', good s -> fair s o -> step s o = Ok s' ->
  good s' /\ forall n w, nth_error (s_vars s) n = Some w -> (forall a x, In a (may_write o) -> nth_error (s_vars s) a = Some x -> apart (s_heap s) w x) -> unchanged s s' w.
Proof. exact @step_all. Qed.
Print Assumptions C86_frame.
(** All states that programs reach are [good]. *)
Theorem C86_states : forall G R (p : list (@op G R)) s, fair_run start p -> runs start p = Ok s -> good s.
Proof. intros G R p s. exact (@runs_good G R p start s start_good). Qed.
Print Assumptions C86_states.
(** Programs without operations in place and without moves, of any length: every variable keeps its blocks and its elements. *)
Theorem C86_programs : forall G R (p : list (@op G R)) s s', good s -> fair_run s p -> Forall (fun o => may_write o = [] /\ forall a, o <> ODrop a) p -> runs s p = Ok s' ->
  forall n w, nth_error (s_vars s) n = Some w -> nth_error (s_vars s') n = Some w /\ unchanged s s' w.
Proof. exact @pure_runs. Qed.
Print Assumptions C86_programs.
Example C86_programs_ex : fair_run start news /\ Forall (fun o : zo => may_write o = [] /\ forall a, o <> ODrop a) (news ++ [OCopy 0; zadd 0 1 2%Z]).
Proof. split; [exact news_fair|]. repeat constructor; discriminate. Qed.
