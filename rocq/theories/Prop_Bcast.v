(** Element-wise products, comparisons and other operations with broadcasting (C22, C35, C66, C67). *)
From Verif Require Import Base Quantity QuantityProofs Ring Index SpecIndex Dense BTensor SpecBTensor BTensorThms BTensorThms2 BTensorEx SpecChain ChainInst Bcast SpecBcast BcastMain.
From Coq Require Import Lia.

(** * C22: products *)
Theorem C22_mul_partial : forall (G : abgroup) (R : ring) (A B : btensor G R) DA DB,
  valid A -> valid B -> bc_ok A B -> dense_form A DA -> dense_form B DB ->
  exists C D, b_mul A B = Ok C /\ valid C /\ b_rule C = qop G (b_rule A) (b_rule B) /\ t_zip false rmul DA DB = Ok D /\ dense_form C D.
Proof. intros G R A B DA DB HA HB HC FA FB. destruct (mul_thm HA HB HC FA FB) as (C & D & E & (V & HR & _) & ED & FD). exists C, D. auto. Qed.
Print Assumptions C22_mul_partial.
Theorem C22_mul_inplace_partial : forall (G : abgroup) (R : ring) (A B : btensor G R),
  valid A -> valid B -> bc_ok A B -> b_rank B <= b_rank A -> b_mul_ A B = b_mul A B.
Proof. intros G R A B. exact (@inplace_thm G R rmul A B). Qed.
Print Assumptions C22_mul_inplace_partial.

(** A vector, a column and a row times [exA]. *)
Definition exv : zt := zB (q 0) 1 [2] [2; 1] [q 0; q 0] [([0], dl [2] [10; 20]%Z); ([1], dl [1] [30]%Z)].
Definition exu : zt := zB (q 0) 2 [2; 1] [1; 2; 1] [q 0; q 1; q (-1)] [([1; 0], dl [2; 1] [2; 3]%Z)].
Ltac bc_ok_tac := split; [intros d Hd; cbn in Hd; destruct d as [|[|]]; try lia; cbn; auto|
  cbn; intros (d & Hd & K); cbn in Hd; destruct d as [|[|]]; try lia; cbn in K; destruct K as [[K1 [K2|(m & K2 & K3)]]|[K1 K2]]; congruence].
Example C22_ex : valid exA /\ valid exv /\ valid exu /\ bc_ok exA exv /\ bc_ok exA exu /\ bc_ok exv exA /\
  rmap elems (rbind (b_mul exA exv) (@to_dense _ _)) = Ok [30; 80; 0; 0; 0; 150; 0; 0; 180]%Z /\
  rmap elems (rbind (b_mul_ exA exv) (@to_dense _ _)) = Ok [30; 80; 0; 0; 0; 150; 0; 0; 180]%Z /\
  rmap elems (rbind (b_mul exv exA) (@to_dense _ _)) = Ok [30; 80; 0; 0; 0; 150; 0; 0; 180]%Z /\
  rmap elems (rbind (b_mul exA exu) (@to_dense _ _)) = Ok [0; 0; 0; 0; 0; 10; 0; 0; 18]%Z.
Proof.
  split; [ex_valid|]. split; [ex_valid|]. split; [ex_valid|]. split; [bc_ok_tac|]. split; [bc_ok_tac|]. split; [bc_ok_tac|].
  repeat split; vm_compute; reflexivity.
Qed.

(** One section of size two times size one: rejected, or given the wrong size when no block is stored. *)
Definition exs : zt := zB (q 0) 1 [1] [2] [q 0] [([0], dl [2] [1; 2]%Z)].
Definition ex1 : zt := zB (q 0) 1 [1] [1] [q 0] [([0], dl [1] [5]%Z)].
Theorem C22_mul_refuted : exists A B : zt, valid A /\ valid B /\ bc_compat (Nat.max (b_rank A) (b_rank B)) (legs A) (legs B) /\
  b_mul A B = Throw InvalidArgument /\ (exists C, b_mul B A = Ok C).
Proof.
  exists exs, ex1. split; [ex_valid|]. split; [ex_valid|]. split; [intros d Hd; cbn in Hd; destruct d; try lia; cbn; auto|].
  split; [reflexivity|]. eexists; reflexivity.
Qed.
Print Assumptions C22_mul_refuted.
Theorem C22_mul_size_refuted : exists A B C : zt, valid A /\ valid B /\ bc_compat (Nat.max (b_rank A) (b_rank B)) (legs A) (legs B) /\
  b_mul A B = Ok C /\ map sum_list (legs A) = [2] /\ map sum_list (legs C) = [1].
Proof.
  exists (with_blocks exs []), ex1. eexists. split; [ex_valid|]. split; [ex_valid|]. split; [intros d Hd; cbn in Hd; destruct d; try lia; cbn; auto|].
  split; [reflexivity|]. split; reflexivity.
Qed.
Print Assumptions C22_mul_size_refuted.
(** In place with [this] of smaller rank: out of bounds. *)
Theorem C22_mul_inplace_refuted : exists A B : zt, valid A /\ valid B /\ bc_ok A B /\ b_mul_ A B = UB /\ exists C, b_mul A B = Ok C.
Proof. exists exv, exA. split; [ex_valid|]. split; [ex_valid|]. split; [bc_ok_tac|]. split; [reflexivity|]. eexists; reflexivity. Qed.
Print Assumptions C22_mul_inplace_refuted.

(** * C66: any element-wise operation acts exactly on the blocks both operands store *)
Theorem C66_masked_partial : forall (G : abgroup) (R : ring) (f : R -> R -> R) (A B : btensor G R),
  valid A -> valid B -> bc_ok A B -> exists C, broadcast_operation f A B = Ok C /\ bcast_of f A B C.
Proof. exact op_thm. Qed.
Print Assumptions C66_masked_partial.
(** Division by a tensor that misses a block is not the dense division: x / 0 is replaced by 0. Here [div] is any function. *)
Theorem C66_div_refuted : forall div : Z -> Z -> Z, div 3%Z 0%Z <> 0%Z ->
  exists (A B C : zt) DA DB D D', valid A /\ valid B /\ bc_ok A B /\ dense_form A DA /\ dense_form B DB /\ @b_div z_group ring_Z div A B = Ok C /\
    @t_zip ring_Z false div DA DB = Ok D /\ dense_form C D' /\ dv D [0; 0] <> dv D' [0; 0].
Proof.
  intros div H. destruct (@to_dense_total _ _ exA exA_valid) as (DA & EA & FA & _). destruct (@to_dense_total _ _ exB exB_valid) as (DB & EB & FB & _).
  assert (HO : bc_ok exA exB) by bc_ok_tac. destruct (@op_thm _ ring_Z div _ _ exA_valid exB_valid HO) as (C & EC & HC).
  destruct (@to_dense_total _ _ C (proj1 HC)) as (D' & ED' & FD' & _).
  assert (SA : dsh DA = [3; 3]) by (destruct FA as [-> _]; reflexivity). assert (SB : dsh DB = [3; 3]) by (destruct FB as [-> _]; reflexivity).
  assert (ED : exists D, @t_zip ring_Z false div DA DB = Ok D /\ dv D [0; 0] = div (dv DA [0; 0]) (dv DB [0; 0])).
  { unfold t_zip. rewrite SA, SB. cbn [rev app bc_shape Nat.eqb orb andb]. eexists; split; reflexivity. }
  destruct ED as (D & ED & EV). exists exA, exB, C, DA, DB, D, D'. repeat (split; [eauto using exA_valid, exB_valid; fail|]). rewrite EV.
  pose proof (proj2 FA [0; 0] [0; 0] eq_refl eq_refl) as VA. pose proof (proj2 FB [0; 0] [0; 0] eq_refl eq_refl) as VB.
  destruct HC as (_ & _ & HL & _ & HS & _). change (place (legs exA) [0; 0] [0; 0]) with [0; 0] in VA. change (place (legs exB) [0; 0] [0; 0]) with [0; 0] in VB.
  change (bentry exA [0; 0] [0; 0]) with 3%Z in VA. change (bentry exB [0; 0] [0; 0]) with 0%Z in VB. rewrite VA, VB.
  assert (EL : legs C = [[1; 2]; [2; 1]]) by (rewrite HL; reflexivity).
  assert (VC : b_sbd C = [2; 2]).
  { unfold b_div, broadcast_operation in EC. cbn in EC. injection EC as <-. reflexivity. }
  pose proof (proj2 FD' [0; 0] [0; 0]) as V. rewrite VC, EL in V. specialize (V eq_refl eq_refl). change (place [[1; 2]; [2; 1]] [0; 0] [0; 0]) with [0; 0] in V.
  rewrite V. rewrite unstored; [exact H|]. rewrite HS by (rewrite VC; reflexivity). intros [_ [x Hx]]. discriminate.
Qed.
Print Assumptions C66_div_refuted.

(** * C67: incompatible operands *)
Theorem C67_rejects_partial : forall (G : abgroup) (R : ring) (f : R -> R -> R) ip ip' (A B : btensor G R) d,
  valid A -> valid B -> let n := Nat.max (b_rank A) (b_rank B) in d < n ->
  let a := nth d (pad n (legs A)) [] in let b := nth d (pad n (legs B)) [] in a <> [1] -> b <> [1] -> length a <> length b ->
  broadcast_operation f A B = Throw InvalidArgument /\ broadcast_operation_ f ip ip' A B = Throw InvalidArgument.
Proof. exact rejects_thm. Qed.
Print Assumptions C67_rejects_partial.
Definition exw : zt := zB (q 0) 1 [3] [1; 1; 1] [q 0; q 0; q 0] [].
Example C67_ex : valid exA /\ valid exw /\ nth 1 (pad 2 (legs exA)) [] <> [1] /\ nth 1 (pad 2 (legs exw)) [] <> [1] /\
  length (nth 1 (pad 2 (legs exA)) []) <> length (nth 1 (pad 2 (legs exw)) []) /\ b_mul exA exw = Throw InvalidArgument.
Proof. split; [ex_valid|]. split; [ex_valid|]. repeat split; try discriminate. Qed.
(** Equal numbers of sections are never compared further: sizes 3 and 5 are combined. *)
Theorem C67_rejects_refuted : exists A B C : zt, valid A /\ valid B /\ map sum_list (legs A) = [3] /\ map sum_list (legs B) = [5] /\ b_mul A B = Ok C.
Proof.
  exists (zB (q 0) 1 [2] [1; 2] [q 0; q 1] [([0], dl [1] [4]%Z)]), (zB (q 1) 1 [2] [2; 3] [q 0; q 1] [([1], dl [3] [4; 5; 6]%Z)]). eexists.
  split; [ex_valid|]. split; [ex_valid|]. split; [reflexivity|]. split; [reflexivity|]. reflexivity.
Qed.
Print Assumptions C67_rejects_refuted.

(** * C35: comparisons *)
Theorem C35_compare_partial : forall (G : abgroup) (R : ring) (cmp : R -> R -> bool) (A B : btensor G R) DA DB,
  valid A -> valid B -> legs A = legs B -> cmp rz rz = false -> (forall b, stores A b <-> stores B b) -> dense_form A DA -> dense_form B DB ->
  exists C D, b_compare cmp A B = Ok C /\ valid C /\ dense_form C D /\ dsh D = dsh DA /\
    forall i, in_range (dsh D) i = true -> dv D i = if cmp (dv DA i) (dv DB i) then ro else rz.
Proof.
  intros G R cmp A B DA DB HA HB HL Hc Hs FA FB. destruct (compare_thm cmp HA HB HL Hc Hs FA FB) as (C & D & E & HO & FD & SD & VD).
  exists C, D. destruct HO as [V _]. auto.
Qed.
Print Assumptions C35_compare_partial.
Definition exA' : zt := with_blocks exA [([0; 0], dl [1; 2] [4; 2]%Z); ([1; 1], dl [2; 1] [5; 9]%Z)].
Example C35_ex : valid exA /\ valid exA' /\ legs exA = legs exA' /\ Z.ltb 0 0 = false /\ (forall b, stores exA b <-> stores exA' b) /\
  rmap elems (rbind (@b_compare _ ring_Z Z.ltb exA exA') (@to_dense _ _)) = Ok [1; 0; 0; 0; 0; 0; 0; 0; 1]%Z.
Proof.
  split; [exact exA_valid|]. split; [ex_valid|]. split; [reflexivity|]. split; [reflexivity|]. split; [|vm_compute; reflexivity].
  intros b. unfold stores, exA', exA. cbn [b_blocks with_blocks SpecFlatMap.assoc fst snd].
  destruct (leqb [0; 0] b), (leqb [1; 1] b); split; intros [x Hx]; eauto; discriminate.
Qed.
(** Equality with itself is not one where no block is stored; "less than" is zero where the other tensor stores nothing. *)
Theorem C35_compare_refuted : exists (A B : zt) C C', valid A /\ valid B /\ legs A = legs B /\
  @b_compare _ ring_Z Z.eqb A A = Ok C /\ rmap elems (to_dense C) = Ok [1; 1; 0; 0; 0; 1; 0; 0; 1]%Z /\
  @b_compare _ ring_Z Z.ltb B A = Ok C' /\ rmap elems (to_dense A) = Ok [3; 4; 0; 0; 0; 5; 0; 0; 6]%Z /\
  rmap elems (to_dense B) = Ok [0; 0; 0; 0; 0; 7; 0; 0; 8]%Z /\ rmap elems (to_dense C') = Ok [0; 0; 0; 0; 0; 0; 0; 0; 0]%Z.
Proof.
  assert (H : rmap elems (rbind (@b_compare _ ring_Z Z.eqb exA exA) (@to_dense _ _)) = Ok [1; 1; 0; 0; 0; 1; 0; 0; 1]%Z) by (vm_compute; reflexivity).
  assert (H' : rmap elems (rbind (@b_compare _ ring_Z Z.ltb exB exA) (@to_dense _ _)) = Ok [0; 0; 0; 0; 0; 0; 0; 0; 0]%Z) by (vm_compute; reflexivity).
  destruct (@b_compare _ ring_Z Z.eqb exA exA) as [C| |] eqn:E; [|discriminate H|discriminate H].
  destruct (@b_compare _ ring_Z Z.ltb exB exA) as [C'| |] eqn:E'; [|discriminate H'|discriminate H'].
  exists exA, exB, C, C'. split; [ex_valid|]. split; [ex_valid|]. split; [reflexivity|]. split; [exact E|]. split; [exact H|]. split; [exact E'|].
  split; [vm_compute; reflexivity|]. split; [vm_compute; reflexivity|]. exact H'.
Qed.
Print Assumptions C35_compare_refuted.
