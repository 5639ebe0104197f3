(** Examples for the compressed Hamiltonians, over the rational numbers. *)
From Verif Require Import Base Quantity QuantityProofs Ring Index SpecIndex Dense IndexProofs BTensor SpecBTensor ReshapeProofs SvdEx SpecSvd Truncate SpecTruncate BTrunc SpecBTrunc RingQc.
From Coq Require Import QArith Qabs Qcanon Lia Lqa.
Set Implicit Arguments.

Definition qc_gt (x y : ring_Qc) : bool := negb (Qle_bool (this x) (this y)).
(** Something between zero and a positive number. *)
Definition qc_half (x : ring_Qc) : ring_Qc := rmul x (qc 1 2).
(** A weight that is zero for zero only: for the cutoff 0 nothing else matters. *)
Definition qc_wt (x : ring_Qc) : w_N := Z.to_N (Z.abs (Qnum (this x))).

Lemma qc_gt_iff x y : qc_gt x y = true <-> (this y < this x)%Q.
Proof. unfold qc_gt. rewrite negb_true_iff, <- not_true_iff_false, Qle_bool_iff. split; [apply Qnot_le_lt|apply Qlt_not_le]. Qed.
Lemma qc_gt_false x y : qc_gt x y = false <-> (this x <= this y)%Q.
Proof. unfold qc_gt. rewrite negb_false_iff. apply Qle_bool_iff. Qed.
Lemma qc_gt_order : total_order qc_gt.
Proof.
  split.
  - intros x. apply qc_gt_false. lra.
  - intros x y z. rewrite !qc_gt_iff. lra.
  - intros x y. rewrite !qc_gt_false. intros H1 H2. apply Qc_is_canon. lra.
Qed.
Lemma qc_half_low x : qc_gt x rz = true -> qc_gt x (qc_half x) = true.
Proof. rewrite !qc_gt_iff. change (this (@rz ring_Qc)) with 0%Q. unfold qc_half. rewrite qc_mul. change (this (qc 1 2)) with (1 # 2)%Q. lra. Qed.
Lemma qc_wt_pos x : (0 < qc_wt x)%N <-> x <> rz.
Proof.
  unfold qc_wt. split.
  - intros H ->. cbn in H. lia.
  - intros H. assert (Qnum (this x) <> 0)%Z; [|lia]. intros E. apply H. apply Qc_is_canon. change (this (@rz ring_Qc)) with 0%Q. unfold Qeq. rewrite E. reflexivity.
Qed.
Lemma qc_total l : wgtb (total qc_wt l) 0%N = true <-> exists x, In x l /\ x <> rz.
Proof.
  change (N.ltb 0 (total qc_wt l) = true <-> exists x : ring_Qc, In x l /\ x <> rz). rewrite N.ltb_lt. induction l as [|x l IH]; [split; [cbn; lia|intros (? & [] & _)]|].
  change (total qc_wt (x :: l)) with (N.add (qc_wt x) (total qc_wt l)). pose proof (qc_wt_pos x) as HX. split.
  - intros H. destruct (N.eq_dec (qc_wt x) 0) as [Z0|Z0]; [|exists x; split; [left; reflexivity|apply HX; lia]]. destruct (proj1 IH) as (y & Hy & Ny); [lia|]. exists y. split; [right; exact Hy|exact Ny].
  - intros (y & [<-|Hy] & Ny); [apply HX in Ny; lia|]. assert (0 < total qc_wt l)%N by (apply IH; eauto). lia.
Qed.
Lemma qc_ones n : entries (@d_ones ring_Qc n) = repeat ro n.
Proof. assert (H : forall (l : list (list nat)), map (fun _ => @ro ring_Qc) l = repeat ro (length l)) by (induction l as [|a l IH]; [reflexivity|]; cbn [map length repeat]; rewrite IH; reflexivity). unfold entries. etransitivity; [apply H|]. f_equal. rewrite idxs_length. cbn. lia. Qed.
(** The matrix itself and the identity, all values 1. *)
Lemma qc_svd (M : dense ring_Qc) : (exists m n, dsh M = [m; n]) ->
  thin M (one_sided M) /\ descending qc_gt (entries (snd (fst (one_sided M)))) /\ forall x, In x (entries (snd (fst (one_sided M)))) -> qc_gt rz x = false.
Proof.
  intros H. split; [apply one_sided_thin; exact H|]. assert (E : exists k, entries (snd (fst (one_sided M))) = repeat (@ro ring_Qc) k) by (unfold one_sided; destruct (_ <=? _)%nat; cbn [fst snd]; rewrite qc_ones; eauto).
  destruct E as (k & ->). split.
  - intros i j Hi Hj. rewrite repeat_length in Hj. rewrite !nth_repeat_lt by lia. reflexivity.
  - intros x Hx. apply repeat_spec in Hx as ->. reflexivity.
Qed.
Lemma qc_quarter_ok (x : ring_Qc) : rmul (radd (radd ro ro) (radd ro ro)) (qc_quarter x) = x.
Proof. apply Qc_is_canon. unfold qc_quarter. rewrite !qc_mul, !qc_add. change (this (@ro ring_Qc)) with 1%Q. change (this (qc 1 4)) with (1 # 4)%Q. ring. Qed.
