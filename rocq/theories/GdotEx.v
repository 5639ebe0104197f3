(** Concrete generalised contractions over the integers. *)
From Verif Require Import Base FlatMap Ring Index SpecIndex Dense BTensor BTensorArith Tensordot SpecTensordot Chain Gdot SpecGdot GdotThms.
Set Implicit Arguments.
Local Notation dense := (dense ring_Z).

(** A (2, 3) and a (1, 2) tensor: contracting dimension 1 of the first with dimension 0 of the second broadcasts. *)
Definition ex_A : dense := @mkD ring_Z [2; 3] (fun i => Z.of_nat (1 + 3 * nth 0 i 0 + nth 1 i 0)).
Definition ex_B : dense := @mkD ring_Z [1; 2] (fun i => Z.of_nat (1 + nth 1 i 0)).
Definition ex_C : dense := @mkD ring_Z [2; 2] (fun i => Z.of_nat (2 * nth 0 i 0 + nth 1 i 0)).
Definition values (d : dense) : list Z := map (dv d) (idxs (dsh d)).
Lemma ex_value : rmap values (tensorgdot ex_C ex_A ex_B [1] [0] (10 : ring_Z)%Z (1 : ring_Z)%Z) = Ok [6; 22; 35; 60]%Z /\
  rmap values (t_tdot ex_A ex_B [1] [0]) = Ok [6; 12; 15; 30]%Z.
Proof. split; vm_compute; reflexivity. Qed.

(** One number: [C = 1], [A] and [B] two vectors of ones. *)
Definition one_C : dense := @d_full ring_Z [] 1%Z.
Definition ones (sh : list nat) : dense := @d_full ring_Z sh 1%Z.
Lemma ex_documented : exists P D, t_tdot (ones [2]) (ones [2]) [0] [0] = Ok P /\ dsh one_C = dsh P /\
  tensorgdot one_C (ones [2]) (ones [2]) [0] [0] (3 : ring_Z)%Z (5 : ring_Z)%Z = Ok D /\ ~ combination (5 : ring_Z)%Z (3 : ring_Z)%Z one_C P D.
Proof.
  eexists. eexists. split; [reflexivity|]. split; [reflexivity|]. split; [reflexivity|]. intros [_ H]. specialize (H [] eq_refl). vm_compute in H. discriminate.
Qed.

(** A (2, 2, 2) tensor with its last two dimensions exchanged, and the same shape in order. *)
Definition flipped : strided := mkS [2; 2; 2] [4; 1; 2] 0.
Definition ordered : strided := mkS [2; 2; 2] [4; 2; 1] 0.
Definition blank : nat -> ring_Z := fun _ => 0%Z.
Lemma range3 i : in_range [2; 2; 2] i = true -> exists a b c, i = [a; b; c] /\ a < 2 /\ b < 2 /\ c < 2.
Proof.
  intros H. destruct i as [|a [|b [|c [|d i]]]]; cbn [in_range] in H; rewrite ?andb_false_r, ?andb_true_r in H; try discriminate.
  apply andb_true_iff in H. destruct H as [H1 H]. apply andb_true_iff in H. destruct H as [H2 H3]. apply Nat.ltb_lt in H1, H2, H3. eauto 10.
Qed.
Lemma ordered_contiguous : contiguous ordered.
Proof. intros i H. destruct (range3 _ H) as (a & b & c & -> & _). unfold addr. cbn. lia. Qed.
Lemma flipped_separate : separate flipped.
Proof.
  intros i j Hi Hj E. destruct (range3 _ Hi) as (a & b & c & -> & Ha & Hb & Hc). destruct (range3 _ Hj) as (a' & b' & c' & -> & Ha' & Hb' & Hc').
  unfold addr in E. cbn in E. assert (a = a') by lia. assert (b = b') by lia. assert (c = c') by lia. subst. reflexivity.
Qed.
Lemma flipped_not_like : ~ matrix_like flipped 2 4.
Proof.
  intros (r & c & H). pose proof (H [0; 0; 1] 0 1 eq_refl ltac:(lia) ltac:(lia) eq_refl) as H1. pose proof (H [0; 1; 0] 0 2 eq_refl ltac:(lia) ltac:(lia) eq_refl) as H2.
  unfold addr in *. cbn in *. lia.
Qed.
Lemma ex_outer : exists P, t_tdot (ones [2]) (ones [2; 2]) [] [] = Ok P /\ dsh P = [2; 2; 2] /\ dv P [0; 0; 0] = 1%Z.
Proof. eexists. split; [reflexivity|]. split; reflexivity. Qed.
Lemma ex_lost : exists P m', t_tdot (ones [2]) (ones [2; 2]) [] [] = Ok P /\ s_sh flipped = dsh P /\
  tensorgdot_in blank flipped (ones [2]) (ones [2; 2]) [] [] (1 : ring_Z)%Z (1 : ring_Z)%Z = Ok m' /\
  ~ combination (1 : ring_Z)%Z (1 : ring_Z)%Z (load blank flipped) P (load m' flipped).
Proof.
  destruct ex_outer as (P & E & D & V). exists P, blank. split; [exact E|]. split; [rewrite D; reflexivity|]. split.
  - eapply in_lost; [exact E|rewrite D; reflexivity|exact flipped_not_like].
  - intros [_ H]. specialize (H [0; 0; 0] eq_refl). rewrite V in H. vm_compute in H. discriminate.
Qed.
(** The same call with the storage in order. *)
Lemma ex_kept : rmap (fun m' => values (load m' ordered)) (tensorgdot_in blank ordered (ones [2]) (ones [2; 2]) [] [] (1 : ring_Z)%Z (1 : ring_Z)%Z) = Ok [1; 1; 1; 1; 1; 1; 1; 1]%Z.
Proof. vm_compute. reflexivity. Qed.

(** An output of shape (4, 1) for a result of shape (2, 2). *)
Definition column : strided := mkS [4; 1] [1; 1] 0.
Lemma column_contiguous : contiguous column.
Proof.
  intros i H. destruct i as [|a [|b [|d i]]]; cbn [s_sh column in_range] in H; rewrite ?andb_false_r, ?andb_true_r in H; try discriminate. unfold addr. cbn. lia.
Qed.
Lemma ex_shape : exists P m', t_tdot ex_A ex_B [1] [0] = Ok P /\ dsh ex_C = dsh P /\ s_sh column <> dsh P /\
  tensorgdot_out blank column ex_C ex_A ex_B [1] [0] (10 : ring_Z)%Z (1 : ring_Z)%Z = Ok m'.
Proof.
  eexists. eexists. split; [reflexivity|]. split; [reflexivity|]. split; [discriminate|]. reflexivity.
Qed.
