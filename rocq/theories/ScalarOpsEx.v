(** Examples and refutations about operations of block tensors with scalars. *)
From Coq Require Import QArith Qcanon.
From Verif Require Import Base Quantity QuantityProofs Ring SpecIndex Dense BTensor SpecBTensor BTensorProofs BTensorThms BTensorEx BTensorArith ArithProofs ScalarOps SpecScalarOps ScalarOpsThms.


Local Open Scope nat_scope.
(** Rational numbers. *)
Definition ring_Qc : ring.
Proof.
  refine {| rT := Qc; rz := 0%Qc; ro := 1%Qc; radd := Qcplus; rmul := Qcmult; ropp := Qcopp; rconj := fun x => x; reqb := Qc_eq_bool |}; intros; try (ring; fail).
  split; [apply Qc_eq_bool_correct|]. intros ->. unfold Qc_eq_bool. destruct (Qc_eq_dec y y); [reflexivity|congruence].
Defined.
Definition qdiv : ring_Qc -> ring_Qc -> ring_Qc := Qcdiv.
Lemma Qc_div_mul : forall x c : ring_Qc, c <> rz -> rmul (qdiv x c) c = x.
Proof. intros x c H. unfold qdiv. cbn in *. field. exact H. Qed.

Definition qB := with_blocks (@mkB z_group ring_Qc (q 0) 2 [2; 2] [1; 2; 2; 1] [q 0; q 1; q 0; q (-1)] [])
  [([0; 0], @mkD ring_Qc [1; 2] (fun i => Q2Qc (inject_Z (Z.of_nat (3 + nth 1 i 0)))))].
Lemma qB_valid : valid qB. Proof. ex_valid. Qed.

Definition zle : ring_Z -> ring_Z -> bool := Z.leb.
Lemma cmp_refuted : exists (T : zt) D c, valid T /\ dense_form T D /\
  ~ exists D', dense_form (m_cmp zle CLe T c) D' /\ dsh D' = dsh D /\ forall i, truth_of (relates zle CLe (dv D i) c) (dv D' i).
Proof.
  destruct (to_dense_spec exA_valid) as [D [_ HD]]. exists exA, D, (1%Z : ring_Z). split; [exact exA_valid|]. split; [exact HD|].
  intros H. apply cmp_full in H; [|discriminate|exact exA_valid|exact HD]. destruct H as [H|H]; [apply H; reflexivity|].
  specialize (H [0; 1] [0; 0] eq_refl eq_refl). apply H. reflexivity.
Qed.
