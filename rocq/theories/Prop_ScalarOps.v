(** Comparisons with scalars, division by and of scalars, search for NaN (C87). *)
From Coq Require Import QArith Qcanon.
From Verif Require Import Base Quantity QuantityProofs FlatMap SpecFlatMap Ring Index SpecIndex Dense BTensor SpecBTensor BTensorEx BTensorArith ScalarOps SpecScalarOps ScalarOpsThms ScalarOpsEx.
Local Open Scope nat_scope.

(** C87. Full claim: comparing a block tensor with a scalar, dividing it by a scalar and dividing a scalar by it give the block tensors of the dense operations.
    Comparisons, stored blocks: one where the relation holds and zero elsewhere, the same blocks and structure. *)
Theorem C87_cmp_stored : forall G (R : ring) (leb : R -> R -> bool) r (T : btensor G R) (c : R), valid T ->
  valid (m_cmp leb r T c) /\ same_meta T (m_cmp leb r T c) /\ map fst (b_blocks (m_cmp leb r T c)) = map fst (b_blocks T) /\
  forall k t, In (k, t) (b_blocks T) -> exists t', In (k, t') (b_blocks (m_cmp leb r T c)) /\ dsh t' = dsh t /\ forall o, truth_of (relates leb r (dv t o) c) (dv t' o).
Proof. exact @cmp_ok. Qed.
Print Assumptions C87_cmp_stored.
(** ... with the scalar on the left: the relation the other way round. *)
Theorem C87_scalar_cmp_stored : forall G (R : ring) (leb : R -> R -> bool) r (c : R) (T : btensor G R), valid T ->
  valid (s_cmp leb r c T) /\ same_meta T (s_cmp leb r c T) /\ map fst (b_blocks (s_cmp leb r c T)) = map fst (b_blocks T) /\
  forall k t, In (k, t) (b_blocks T) -> exists t', In (k, t') (b_blocks (s_cmp leb r c T)) /\ dsh t' = dsh t /\ forall o, truth_of (relates leb r c (dv t o)) (dv t' o).
Proof. exact @scmp_ok. Qed.
Print Assumptions C87_scalar_cmp_stored.
(** The whole tensor. Missing from the full claim: comparisons that hold of zero, on tensors with blocks that are not stored ([C87_cmp_refuted]). *)
Theorem C87_cmp_partial : forall G (R : ring) (leb : R -> R -> bool) r (T : btensor G R) (c : R) D, ro <> (rz : R) -> valid T -> dense_form T D ->
  ((exists D', dense_form (m_cmp leb r T c) D' /\ dsh D' = dsh D /\ forall i, truth_of (relates leb r (dv D i) c) (dv D' i)) <->
   ~ relates leb r rz c \/ forall b o, in_range (b_sbd T) b = true -> in_range (pick 0 (legs T) b) o = true -> assoc leqb b (b_blocks T) <> None).
Proof. exact @cmp_full. Qed.
Print Assumptions C87_cmp_partial.
(** [T <= 1] is false where [T] has no block. *)
Theorem C87_cmp_refuted : exists (T : zt) D c, valid T /\ dense_form T D /\
  ~ exists D', dense_form (m_cmp zle CLe T c) D' /\ dsh D' = dsh D /\ forall i, truth_of (relates zle CLe (dv D i) c) (dv D' i).
Proof. exact cmp_refuted. Qed.
Print Assumptions C87_cmp_refuted.
Example C87_cmp_ex : valid exA /\ rmap elems (to_dense (m_cmp zle CGt exA 4%Z)) = Ok [0; 0; 0; 0; 0; 1; 0; 0; 1]%Z /\
  rmap elems (to_dense (m_cmp zle CLe exA 4%Z)) = Ok [1; 1; 0; 0; 0; 0; 0; 0; 0]%Z /\ rmap elems (to_dense (s_cmp zle CLt 4%Z exA)) = Ok [0; 0; 0; 0; 0; 1; 0; 0; 1]%Z /\
  ~ relates zle CGt 0%Z 4%Z.
Proof. split; [apply exA_valid|]. repeat (split; [vm_compute; reflexivity|]). intros [H _]. discriminate. Qed.

(** Division by a scalar that is not zero, new and in place; [div] is any division of exact scalars. *)
Theorem C87_div : forall G (R : ring) (div : R -> R -> R), (forall x c : R, c <> rz -> rmul (div x c) c = x) ->
  forall (T : btensor G R) c D, c <> rz -> valid T -> dense_form T D ->
  valid (m_div div T c) /\ same_meta T (m_div div T c) /\ dense_form (m_div div T c) (d_map (fun x => div x c) D).
Proof. exact @div_ok. Qed.
Print Assumptions C87_div.
Theorem C87_div_in : forall G (R : ring) (div : R -> R -> R), (forall x c : R, c <> rz -> rmul (div x c) c = x) ->
  forall (T : btensor G R) c D, c <> rz -> valid T -> dense_form T D ->
  valid (m_div_ div T c) /\ same_meta T (m_div_ div T c) /\
  exists D', dense_form (m_div_ div T c) D' /\ dsh D' = dsh D /\ forall i, dv D' i = div (dv D i) c.
Proof. exact @div_in_ok. Qed.
Print Assumptions C87_div_in.
Example C87_div_ex : (forall x c : ring_Qc, c <> rz -> rmul (qdiv x c) c = x) /\ valid qB /\
  rmap (fun D : dense ring_Qc => this (dv D [0; 1])) (to_dense (m_div qdiv qB (Q2Qc 2 : ring_Qc))) = Ok 2%Q /\ rmap (fun D : dense ring_Qc => this (dv D [0; 1])) (to_dense (m_div_ qdiv qB (Q2Qc 2 : ring_Qc))) = Ok 2%Q.
Proof. split; [exact Qc_div_mul|]. split; [exact qB_valid|]. split; vm_compute; reflexivity. Qed.

(** A scalar divided by a tensor: undefined behaviour for every tensor with a block, zero divisors or not. *)
Theorem C87_scalar_div_refuted : forall G (R : ring) (c : R) (T : btensor G R), b_blocks T <> [] -> s_div c T = UB.
Proof. exact @s_div_ub. Qed.
Print Assumptions C87_scalar_div_refuted.
Example C87_scalar_div_ex : valid exA /\ b_blocks exA <> [] /\ s_div (1%Z : ring_Z) exA = UB.
Proof. split; [apply exA_valid|]. split; [discriminate|reflexivity]. Qed.

(** [anynan]: some element of some block is not a number. *)
Theorem C87_anynan : forall G (R : ring) (nan : R -> bool) (T : btensor G R),
  anynan nan T = true <-> exists k t i, In (k, t) (b_blocks T) /\ in_range (dsh t) i = true /\ nan (dv t i) = true.
Proof. exact @anynan_ok. Qed.
Print Assumptions C87_anynan.
Example C87_anynan_ex : anynan (fun x : ring_Z => Z.eqb x 6) exA = true /\ anynan (fun x : ring_Z => Z.eqb x 7) exA = false.
Proof. split; reflexivity. Qed.
