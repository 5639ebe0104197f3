(** Examples and counterexamples for the truncation of block decompositions, over the integers. *)
From Verif Require Import Base Quantity QuantityProofs Ring Index SpecIndex Dense IndexProofs FlatMap SpecFlatMap BTensor SpecBTensor BTensorThms BTensorEx SpecEdges BSvd SpecSvd SvdEx ReshapeProofs
  Truncate SpecTruncate BTrunc SpecBTrunc BTruncThms BTruncMain.
From Coq Require Import Lia ZArith.
Set Implicit Arguments.

Definition zgt (x y : ring_Z) : bool := Z.ltb y x.
(** One step towards zero. *)
Definition zlow (x : ring_Z) : ring_Z := Z.sub x (Z.sgn x).
Definition zsq (x : ring_Z) : w_N := Z.to_N (Z.mul x x).
Lemma zgt_order : total_order zgt.
Proof. split; unfold zgt; cbn; intros; rewrite ?Z.ltb_lt, ?Z.ltb_ge in *; lia. Qed.

(** Two sections with values 9 4 and 5 1, one row section for each. *)
Definition tU : zt := zB (q 0) 2 [2; 2] [2; 2; 2; 2] [q 0; q 1; q 0; q (-1)] [([0; 0], dl [2; 2] [1; 0; 0; 1]%Z); ([1; 1], dl [2; 2] [0; 1; 1; 0]%Z)].
Definition td : zt := zB (q 0) 1 [2] [2; 2] [q 0; q 0] [([0], dl [2] [9; 4]%Z); ([1], dl [2] [5; 1]%Z)].
(** Two row sections of one quantity around a row of another one. *)
Definition oU : zt := zB (q 0) 2 [3; 2] [1; 1; 1; 1; 1] [q 1; q 0; q 1; q 0; q (-1)] [([0; 1], dl [1; 1] [1]%Z); ([1; 0], dl [1; 1] [1]%Z); ([2; 1], dl [1; 1] [1]%Z)].
Definition od : zt := zB (q 0) 1 [2] [1; 1] [q 0; q 0] [([0], dl [1] [9]%Z); ([1], dl [1] [1]%Z)].
Definition oV : zt := zB (q 0) 2 [2; 2] [1; 1; 1; 1] [q 0; q 1; q 0; q (-1)] [([0; 0], dl [1; 1] [1]%Z); ([1; 1], dl [1; 1] [1]%Z)].
Definition ed : zt := zB (q 0) 1 [2] [1; 1] [q 0; q 0] [([0], dl [1] [5]%Z); ([1], dl [1] [5]%Z)].
Definition nd : zt := zB (q 0) 1 [2] [1; 1] [q 0; q 0] [([0], dl [1] [0]%Z); ([1], dl [1] [0]%Z)].

Ltac b63 := vm_compute; congruence.
Lemma desc2 (a b : Z) : zgt b a = false -> descending zgt [a; b].
Proof. intros H i j Hi Hj. cbn in Hj. destruct j as [|[|j]], i as [|i]; try lia. exact H. Qed.
Lemma desc1 (a : Z) : descending zgt [a].
Proof. intros i j Hi Hj. cbn in Hj. lia. Qed.
(** The hypotheses of the theorems on [U], [d], [V]. *)
Definition fits (U d V : zt) : Prop :=
  valid d /\ b_rank d = 1 /\ (forall e, In e (b_blocks d) -> descending zgt (entries (snd e))) /\ carries_d d U /\ carries_d d V /\
  1 <= length (all_values d) /\ (Z.of_nat (length (all_values d)) <= 2 ^ 63)%Z.
Ltac carries_tac := split; [ex_valid|split; [cbn; lia|reflexivity]].
Ltac fits_tac := split; [ex_valid|split; [reflexivity|split; [|split; [carries_tac|split; [carries_tac|split; [vm_compute; lia|b63]]]]]];
  cbn; let e := fresh in let H := fresh in intros e H; repeat (destruct H as [<-|H]; [cbn; first [apply desc1|apply desc2; reflexivity]|]); destruct H.
Lemma t_fits : fits tU td tU. Proof. fits_tac. Qed.
Lemma o_fits : fits oU od oV. Proof. fits_tac. Qed.
Lemma e_fits : fits oV ed oV. Proof. fits_tac. Qed.
Lemma n_fits : fits oV nd oV. Proof. fits_tac. Qed.

(** What is looked at in the examples: the blocks and their entries, and the sizes of the sections. *)
Definition tshow (x : option (result (zt * zt * zt))) :=
  option_map (rmap (fun '(U, d, V) => (map (fun e => (fst e, elems (snd e))) (b_blocks U), map (fun e => (fst e, elems (snd e))) (b_blocks d), (b_ss U, b_ss d, b_ss V)))) x.

Lemma some_ok A B (f : A -> B) (x : option (result A)) y : option_map (rmap f) x = Some (Ok y) -> exists a, x = Some (Ok a) /\ f a = y.
Proof. destruct x as [[a| |]|]; cbn; intros E; try discriminate. injection E as <-. eauto. Qed.
Lemma order_witness : exists U d V U' d' V', fits U d V /\ truncate zgt zlow zsq (U, d, V) 1%N 1 10 = Some (Ok (U', d', V')) /\ map fst (b_blocks U') = [[1; 0]; [0; 1]] /\ ~ valid U'.
Proof.
  exists oU, od, oV. destruct (@some_ok _ _ (fun '(U, _, _) => map fst (b_blocks U)) (truncate zgt zlow zsq (oU, od, oV) 1%N 1 10) [[1; 0]; [0; 1]]) as (((U', d'), V') & E & K); [vm_compute; reflexivity|].
  exists U', d', V'. split; [exact o_fits|]. split; [exact E|]. split; [exact K|]. intros (_ & _ & H). destruct (b_blocks U') as [|(k1, x1) [|(k2, x2) [|]]]; try discriminate. cbn in K. injection K as -> ->.
  inversion H as [|? ? _ F]; subst. inversion F as [|? ? F1 _]; subst. discriminate.
Qed.
Lemma blocks_witness : exists U d V U' d' V', fits U d V /\ truncate zgt zlow zsq (U, d, V) 0%N 1 1 = Some (Ok (U', d', V')) /\
  map fst (b_blocks d') = [[0]] /\ map fst (b_blocks U') = [[0; 0]; [1; 1]] /\ legs U' = [[2; 2]; [1; 2]].
Proof.
  exists tU, td, tU. destruct (@some_ok _ _ (fun '(U, d, _) => (map fst (b_blocks d), map fst (b_blocks U), legs U)) (truncate zgt zlow zsq (tU, td, tU) 0%N 1 1) ([[0]], [[0; 0]; [1; 1]], [[2; 2]; [1; 2]])) as (((U', d'), V') & E & K); [vm_compute; reflexivity|].
  exists U', d', V'. split; [exact t_fits|]. split; [exact E|]. injection K as K1 K2 K3. auto.
Qed.
Lemma max_witness : exists U d V U' d' V', fits U d V /\ truncate zgt zlow zsq (U, d, V) 0%N 1 1 = Some (Ok (U', d', V')) /\ all_values d' = [5; 5]%Z.
Proof.
  exists oV, ed, oV. destruct (@some_ok _ _ (fun '(_, d, _) => all_values d) (truncate zgt zlow zsq (oV, ed, oV) 0%N 1 1) [5; 5]%Z) as (((U', d'), V') & E & K); [vm_compute; reflexivity|]. exists U', d', V'. split; [exact e_fits|]. auto.
Qed.
Lemma min_witness : exists U d V U' d' V', fits U d V /\ truncate zgt zlow zsq (U, d, V) 0%N 1 10 = Some (Ok (U', d', V')) /\ all_values d' = [].
Proof.
  exists oV, nd, oV. destruct (@some_ok _ _ (fun '(_, d, _) => all_values d) (truncate zgt zlow zsq (oV, nd, oV) 0%N 1 10) []) as (((U', d'), V') & E & K); [vm_compute; reflexivity|]. exists U', d', V'. split; [exact n_fits|]. auto.
Qed.
Lemma eigh_throws (G : abgroup) (R : ring) (W : weights) gtb lower (wt : R -> W) (e S : btensor G R) thr mn mx : truncate_es gtb lower wt e S thr mn mx = Some (Throw TorchError).
Proof. reflexivity. Qed.
Lemma zsq_total l : wgtb (total zsq l) 0%N = true <-> exists x, In x l /\ x <> rz.
Proof.
  change (N.ltb 0 (total zsq l) = true <-> exists x, In x l /\ x <> 0%Z). rewrite N.ltb_lt. induction l as [|x l IH]; [split; [cbn; lia|intros (? & [] & _)]|]. cbn [total]. change (wadd (zsq x) (total zsq l)) with (N.add (zsq x) (total zsq l)).
  assert (HX : (0 < zsq x)%N <-> x <> 0%Z) by (unfold zsq; cbn; split; [intros H ->; cbn in H; lia|intros H; assert (0 < Z.mul x x)%Z by (destruct (Z.lt_trichotomy x 0) as [|[|]]; nia); change (0 < Z.to_N (Z.mul x x))%N; lia]).
  split.
  - intros H. destruct (N.eq_dec (zsq x) 0) as [Z0|Z0]; [|exists x; split; [left; reflexivity|apply HX; lia]]. destruct (proj1 IH) as (y & Hy & Ny); [lia|]. exists y. split; [right; exact Hy|exact Ny].
  - intros (y & [<-|Hy] & Ny); [apply HX in Ny; lia|]. assert (0 < total zsq l)%N by (apply IH; eauto). lia.
Qed.
Lemma zlow_pos x : zgt x rz = true -> zgt x (zlow x) = true.
Proof. unfold zgt, zlow. cbn. rewrite !Z.ltb_lt. intros H. rewrite Z.sgn_pos by exact H. lia. Qed.
(** A decomposition of every integer matrix with values that are not negative and in descending order. *)
Definition pos_sided (M : dense ring_Z) : dense ring_Z * dense ring_Z * dense ring_Z :=
  if (nth 0 (dsh M) 0 =? 1) && (nth 1 (dsh M) 0 =? 1)
  then (dl [1; 1] [if Z.ltb (dv M [0; 0]) 0 then (-1)%Z else 1%Z], dl [1] [Z.abs (dv M [0; 0])], dl [1; 1] [1%Z]) else one_sided M.
Lemma pos_sided_thin M : (exists m n, dsh M = [m; n]) -> thin M (pos_sided M).
Proof.
  intros (m & n & E). unfold pos_sided. destruct (_ && _) eqn:C; [|apply one_sided_thin; eauto]. rewrite E in C. cbn in C. apply andb_true_iff in C as (C1 & C2). apply Nat.eqb_eq in C1, C2. subst m n.
  intros m' n' E'. rewrite E in E'. injection E' as <- <-. cbn [Nat.min]. split; [reflexivity|]. split; [reflexivity|]. split; [reflexivity|]. intros [|i] [|j] Hi Hj; try lia. cbn. destruct (Z.ltb_spec (dv M [0; 0]) 0); lia.
Qed.
Lemma ones_entries n : entries (@d_ones ring_Z n) = repeat 1%Z n.
Proof. assert (H : forall (l : list (list nat)), map (fun _ => 1%Z) l = repeat 1%Z (length l)) by (induction l; cbn; congruence). unfold entries. cbn [dv d_ones d_fun]. etransitivity; [apply H|]. f_equal. rewrite idxs_length. cbn. lia. Qed.
Lemma pos_sided_values M : (exists m n, dsh M = [m; n]) -> descending zgt (entries (snd (fst (pos_sided M)))) /\ forall x, In x (entries (snd (fst (pos_sided M)))) -> zgt rz x = false.
Proof.
  intros (m & n & E). unfold pos_sided. destruct (_ && _) eqn:C.
  - cbn [fst snd]. split; [apply desc1|]. intros x [<-|[]]. unfold zgt. cbn. apply Z.ltb_ge. lia.
  - assert (H : exists k, entries (snd (fst (one_sided M))) = repeat 1%Z k) by (unfold one_sided; destruct (_ <=? _); cbn [fst snd]; rewrite ones_entries; eauto). destruct H as (k & ->). split.
    + intros i j Hi Hj. rewrite repeat_length in Hj. unfold zgt. rewrite !ReshapeProofs.nth_repeat_lt by lia. reflexivity.
    + intros x Hx. apply repeat_spec in Hx as ->. reflexivity.
Qed.
Definition sg : zt := zB (q 1) 2 [2; 2] [1; 1; 1; 1] [q 0; q 1; q 0; q 1] [([0; 1], dl [1; 1] [5]%Z); ([1; 0], dl [1; 1] [-7]%Z)].
Definition tol_show (x : option (result (zt * zt * zt))) := option_map (fun r => show r) x.
