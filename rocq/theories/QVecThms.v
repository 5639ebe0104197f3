(** Null vectors, block tensors that hold them, and programs. *)
From Coq Require Import Lia.
From Verif Require Import Base Quantity Erased QVec SpecQVec DmrgProofs ErasedProofs QVecProofs.
Set Implicit Arguments.

Section QT.
  Variable F : family.
  Notation qv := (qv F).

  Lemma typed_vec (w : vec F) : w = None \/ exists t l, holds_list w t l.
  Proof. destruct w as [[t m]|]; [right|left; reflexivity]. exists t. eexists. exists m. split; reflexivity. Qed.

  (** What works, and what is reported, on a null vector. *)
  Lemma null_ok (s : vstate F) i (v : qv) n : nth_error s i = Some None ->
    v_elems (None : vec F) = [] /\ v_index_const (None : vec F) n = Throw RuntimeError /\ v_at (None : vec F) n = Throw RuntimeError /\
    (forall perm rep, v_permute (None : vec F) perm rep = Ok None) /\
    vstep s (VPush i v) = VDone (upd s i (v_count 1 v)) /\ vstep s (VResizeV i n v) = VDone (upd s i (v_count n v)) /\
    vstep s (VClear F i) = VDone (upd s i None) /\ vstep s (VErase F i 0 0) = VDone (upd s i None) /\
    vstep s (VPop F i) = VThrown RuntimeError s /\ vstep s (VResize F i n) = VThrown RuntimeError s /\ vstep s (VInsert i 0 n v) = VThrown RuntimeError s.
  Proof. intros H. cbn. unfold vec_at. rewrite H. repeat split. Qed.
  Lemma null_bad (s : vstate F) i j (v : qv) n (w : vec F) t l : nth_error s i = Some None -> holds_list w t l ->
    v_size (None : vec F) = UB /\ v_index (None : vec F) n = UB /\ v_loop (None : vec F) = UB /\ v_copy (None : vec F) = UB /\ v_eq w None = UB /\
    v_eq (None : vec F) None = Ok false /\ v_init ([] : list qv) = UB /\
    vstep s (VCopy F i) = VUndef F /\ vstep s (VAssign F j i) = VUndef F /\ vstep s (VSet i n v) = VUndef F.
  Proof.
    intros H (m & -> & ->). repeat split; cbn; unfold vec_at; rewrite ?H; cbn; auto. destruct (nth_error s j); reflexivity.
  Qed.
  (** The quantities of tensors. *)
  Lemma tensors (n k : nat) (w : vec F) t l (c : list (vec F)) : holds_list w t l ->
    t_copy w = Ok w /\ t_copy (t_default F) = UB /\ t_copy (t_moved w) = UB /\
    c_copy (c_sized F (S n)) = UB /\ c_realloc (repeat w k ++ c_sized F (S n)) = UB /\ c_copy (repeat w k) = Ok (repeat w k).
  Proof.
    intros H. unfold t_copy, c_realloc. rewrite (copy_ok H). repeat split.
    - induction k as [|k IH]; [reflexivity|]; cbn [repeat app c_copy]. unfold t_copy. rewrite (copy_ok H). cbn [rbind]. now rewrite IH.
    - induction k as [|k IH]; [reflexivity|]; cbn [repeat app c_copy]. unfold t_copy. rewrite (copy_ok H). cbn [rbind]. now rewrite IH.
  Qed.

  (** An operation touches the vectors it names only. *)
  Lemma frame (s s' : vstate F) o k w : vstep s o = VDone s' -> nth_error s k = Some w -> ~ names o k -> nth_error s' k = Some w.
  Proof.
    intros H Hk N.
    assert (S : forall i w', nth_error s i <> None -> k <> i -> nth_error (upd s i w') k = Some w).
    { intros i w' Hi Ni. rewrite nth_error_upd by (now apply nth_error_Some). destruct (Nat.eqb_spec k i); congruence. }
    assert (A : forall w', nth_error (s ++ [w']) k = Some w) by (intros; rewrite nth_error_app1; [assumption|eapply nth_error_lt; eauto]).
    assert (T : forall i r, target o = Some i -> match (do w <- vec_at s i ; r w) with Ok w => VDone (upd s i w) | Throw e => VThrown e s | UB => VUndef F end = VDone s' -> names o k \/ nth_error s' k = Some w).
    { intros i r Ht. unfold vec_at. destruct (nth_error s i) as [x|] eqn:E; cbn [rbind]; [|discriminate]. destruct (r x) as [y|e|]; try discriminate. intros [= <-].
      destruct (Nat.eq_dec k i) as [->|Ni]; [left; destruct o; cbn in *; try discriminate; congruence|right; apply S; congruence]. }
    assert (M : forall r, made s r = VDone s' -> nth_error s' k = Some w) by (intros r; destruct r; cbn; try discriminate; intros [= <-]; apply A).
    destruct o; cbn [vstep target] in H; try (eapply M; eassumption);
      try (match type of H with context [vec_at s ?i] => destruct (T i _ eq_refl H) as [?|?]; [contradiction|assumption] end).
    - destruct (nth_error s i) as [x|] eqn:E; [|discriminate]. injection H as <-. cbn in N.
      rewrite nth_error_app1; [apply S; congruence|]. rewrite upd_length by (eapply nth_error_lt; eauto). eapply nth_error_lt; eauto.
    - unfold vec_at in H. destruct (nth_error s i) as [x|] eqn:E; cbn [rbind] in H; [|discriminate]. destruct (nth_error s j) as [y|] eqn:E'; cbn [rbind] in H; [|discriminate].
      destruct (v_copy y); try discriminate. injection H as <-. apply S; [congruence|exact N].
    - destruct (nth_error s i) as [x|] eqn:E; [|discriminate]. destruct (nth_error s j) as [y|] eqn:E'; [|discriminate]. injection H as <-. cbn in N.
      rewrite nth_error_upd by (rewrite upd_length; eapply nth_error_lt; eauto). destruct (Nat.eqb_spec k i); [tauto|]. apply S; [congruence|tauto].
    - destruct (nth_error s i) as [x|] eqn:E; [|discriminate]. destruct (nth_error s j) as [y|] eqn:E'; [|discriminate]. injection H as <-. cbn in N.
      rewrite nth_error_upd by (rewrite upd_length; eapply nth_error_lt; eauto). destruct (Nat.eqb_spec k j); [tauto|]. apply S; [congruence|tauto].
  Qed.
  Lemma thrown (s s' : vstate F) o e : vstep s o = VThrown e s' -> s' = s.
  Proof.
    destruct o; cbn; unfold made; intros H;
      repeat match type of H with context [match ?r with _ => _ end] => destruct r; try discriminate end; congruence.
  Qed.
  (** Copies and moves. *)
  Lemma copies (s : vstate F) i j w v t l : nth_error s i = Some v -> nth_error s j = Some w -> holds_list w t l ->
    vstep s (VCopy F j) = VDone (s ++ [w]) /\ vstep s (VAssign F i j) = VDone (upd s i w) /\ vstep s (VMove F j) = VDone (upd s j None ++ [w]) /\
    vstep s (VAssignMove F i j) = VDone (upd (upd s j None) i w) /\ vstep s (VSwap F i j) = VDone (upd (upd s i w) j v).
  Proof. intros Hi Hj H. cbn. unfold vec_at. rewrite Hi, Hj. cbn. rewrite (copy_ok H). repeat split. Qed.
End QT.
