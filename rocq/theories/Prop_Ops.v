(** Property theorems about the one-site operators: with conserved quantities (C70), and the Pauli matrices (C71). *)
From Verif Require Import Base Quantity QuantityProofs Ring SpecIndex Dense BTensor SpecBTensor SpecChain SpecSector BTensorEx SelRule
  Models SpecModels SpecModelsBlock OpsBlock SpecOps OpsProofs OpsThms RingQc.

(** C70. Any operator whose non-zero elements pass the test of [from_basic_tensor_like]: the result denotes it, with the quantity
    of its elements as selection rule; without a definite quantity it is refused. [big] is the test against the cutoff 0. *)
Theorem C70_operator : forall (G : abgroup) (R : ring) big signif (T : btensor G R) t, (forall x, big x = false <-> x = rz) ->
  meta_ok T -> b_blocks T = [] -> b_rank T = 2 -> (forall n, In n (b_sbd T) -> 0 < n) -> dsh t = map sum_list (legs T) ->
  (forall i, in_range (dsh t) i = true -> dv t i = rz \/ visible signif (dv t i)) ->
  (exists C, b_operator big signif T t = Ok C /\ valid C /\ blegs C = blegs T /\ dense_form C t /\ definite T t (b_rule C)) \/
  (b_operator big signif T t = Throw LogicError /\ forall r, ~ definite T t r).
Proof. intros G R big signif T t H. exact (@operator_spec G R big signif H T t). Qed.
Print Assumptions C70_operator.
(** Any two quantities of the two states are fine. *)
Theorem C70_pauli : forall (G : abgroup) (R : ring) big signif x (T : btensor G R) p0 p1 sx isy sz lo id, (forall x, big x = false <-> x = rz) -> (ro : R) <> rz ->
  visible signif ro -> visible signif (ropp ro) -> op_shape x T -> sum_list (fst x) = 2 -> carries x 0 p0 -> carries x 1 p1 -> pauli (R := R) = (sx, isy, sz, lo, id) ->
  exists Sz Lo Id, b_pauli big signif T = Ok (Sz, Lo, Id) /\ op_is x sz (qe G) Sz /\ op_is x lo (qop G p0 (qinv G p1)) Lo /\ op_is x id (qe G) Id.
Proof. intros G R big signif x T p0 p1 sx isy sz lo id H1 H2 H3 H4. exact (@pauli_block G R big signif H1 H2 H3 H4 x T p0 p1 sx isy sz lo id). Qed.
Print Assumptions C70_pauli.
(** The four states must satisfy p0 p3 = p1 p2; otherwise the annihilators have no definite quantity. *)
Theorem C70_fermions : forall (G : abgroup) (R : ring) big signif x (T : btensor G R) p0 p1 p2 p3 c_up c_dn F id, (forall x, big x = false <-> x = rz) -> (ro : R) <> rz ->
  visible signif ro -> visible signif (ropp ro) -> op_shape x T -> sum_list (fst x) = 4 -> carries x 0 p0 -> carries x 1 p1 -> carries x 2 p2 -> carries x 3 p3 ->
  fermions (R := R) = (c_up, c_dn, F, id) -> qop G p0 p3 = qop G p1 p2 ->
  exists Up Dn Fb Id, b_fermions big signif T = Ok (Up, Dn, Fb, Id) /\ op_is x c_up (qop G p0 (qinv G p1)) Up /\ op_is x c_dn (qop G p0 (qinv G p2)) Dn /\
    op_is x F (qe G) Fb /\ op_is x id (qe G) Id.
Proof. intros G R big signif x T p0 p1 p2 p3 c_up c_dn F id H1 H2 H3 H4 H5 H6 H7 H8 H9 H10 H11. exact (@fermions_block G R big signif H1 H2 H3 H4 x T p0 p1 p2 p3 c_up c_dn F id H5 H6 H7 H8 H9 H10 H11). Qed.
Print Assumptions C70_fermions.
Theorem C70_fermions_refused : forall (G : abgroup) (R : ring) big signif x (T : btensor G R) p0 p1 p2 p3 c_up c_dn F id, (forall x, big x = false <-> x = rz) -> (ro : R) <> rz ->
  visible signif ro -> op_shape x T -> sum_list (fst x) = 4 -> carries x 0 p0 -> carries x 1 p1 -> carries x 2 p2 -> carries x 3 p3 ->
  fermions (R := R) = (c_up, c_dn, F, id) -> qop G p0 p3 <> qop G p1 p2 -> b_fermions big signif T = Throw LogicError.
Proof. intros G R big signif x T p0 p1 p2 p3 c_up c_dn F id H1 H2 H3 H5 H6 H7 H8 H9 H10 H11. exact (@fermions_rejected G R big signif H1 H2 H3 x T p0 p1 p2 p3 c_up c_dn F id H5 H6 H7 H8 H9 H10 H11). Qed.
Print Assumptions C70_fermions_refused.

(** * Examples: electrons counted by spin, then by a quantity that is not additive. *)
Definition ob_big (x : ring_Qc) : bool := negb (reqb x rz).
Lemma ob_big_spec x : ob_big x = false <-> x = rz.
Proof. unfold ob_big. rewrite Bool.negb_false_iff. apply reqb_spec. Qed.
Definition ob_leg (a b c d : z_group) : list nat * list z_group := ([1; 1; 1; 1], [a; b; c; d]).
Definition ob_shape (a b c d : z_group) : btensor z_group ring_Qc :=
  @of_struct z_group ring_Qc [[(1, a); (1, b); (1, c); (1, d)]; map (fun x => (1, qinv z_group x)) [a; b; c; d]] (qe z_group).
Lemma ob_carries a b c d : carries (ob_leg a b c d) 0 a /\ carries (ob_leg a b c d) 1 b /\ carries (ob_leg a b c d) 2 c /\ carries (ob_leg a b c d) 3 d.
Proof. repeat split; [exists 0, 0|exists 1, 0|exists 2, 0|exists 3, 0]; (split; [unfold located; cbn; lia|reflexivity]). Qed.
Lemma ob_one : (ro : ring_Qc) <> rz. Proof. intros H. apply ob_big_spec in H. discriminate. Qed.
Lemma ob_op_shape a b c d : op_shape (ob_leg a b c d) (ob_shape a b c d).
Proof. split; [split; [reflexivity|split; reflexivity]|]. split; reflexivity. Qed.
Example C70_ex : exists c_up c_dn F id, fermions (R := ring_Qc) = (c_up, c_dn, F, id) /\
  exists Up Dn Fb Id, b_fermions ob_big qc_signif (ob_shape (q 0) (q 1) (q 1) (q 2)) = Ok (Up, Dn, Fb, Id) /\
    op_is (ob_leg (q 0) (q 1) (q 1) (q 2)) c_up (qop z_group (q 0) (qinv z_group (q 1))) Up /\ op_is (ob_leg (q 0) (q 1) (q 1) (q 2)) c_dn (qop z_group (q 0) (qinv z_group (q 1))) Dn /\
    op_is (ob_leg (q 0) (q 1) (q 1) (q 2)) F (qe z_group) Fb /\ op_is (ob_leg (q 0) (q 1) (q 1) (q 2)) id (qe z_group) Id.
Proof.
  do 4 eexists. split; [reflexivity|]. destruct (ob_carries (q 0) (q 1) (q 1) (q 2)) as (K0 & K1 & K2 & K3).
  refine (C70_fermions z_group ring_Qc ob_big qc_signif (ob_leg (q 0) (q 1) (q 1) (q 2)) (ob_shape (q 0) (q 1) (q 1) (q 2)) (q 0) (q 1) (q 1) (q 2) _ _ _ _ ob_big_spec ob_one _ _ (ob_op_shape _ _ _ _) eq_refl K0 K1 K2 K3 eq_refl _).
  - exact (qc_visible ro eq_refl).
  - exact (qc_visible (ropp ro) eq_refl).
  - apply sig_eq. reflexivity.
Qed.
Example C70_refused_ex : b_fermions ob_big qc_signif (ob_shape (q 0) (q 1) (q 1) (q 1)) = Throw LogicError.
Proof.
  destruct (ob_carries (q 0) (q 1) (q 1) (q 1)) as (K0 & K1 & K2 & K3).
  refine (C70_fermions_refused z_group ring_Qc ob_big qc_signif (ob_leg (q 0) (q 1) (q 1) (q 1)) (ob_shape (q 0) (q 1) (q 1) (q 1)) (q 0) (q 1) (q 1) (q 1) _ _ _ _ ob_big_spec ob_one _ (ob_op_shape _ _ _ _) eq_refl K0 K1 K2 K3 eq_refl _).
  - exact (qc_visible ro eq_refl).
  - intros H. apply (f_equal (@proj1_sig _ _)) in H. vm_compute in H. discriminate.
Qed.

(** C71. The relations between the matrices returned by [pauli]. *)
Theorem C71_algebra : forall (R : ring) (sx isy sz lo id : dense R), pauli (R := R) = (sx, isy, sz, lo, id) ->
  let X := of_dense sx in let Y := of_dense isy in let Z := of_dense sz in let L := of_dense lo in let I := of_dense id in
  meq 2 I (@delta R) /\ meq 2 (mmul 2 X X) I /\ meq 2 (mmul 2 Y Y) (mscale (ropp ro) I) /\ meq 2 (mmul 2 Z Z) I /\
  meq 2 (mmul 2 X Y) (mscale (ropp ro) Z) /\ meq 2 (mmul 2 Y X) Z /\ meq 2 (mmul 2 Y Z) (mscale (ropp ro) X) /\ meq 2 (mmul 2 Z Y) X /\ meq 2 (mmul 2 Z X) Y /\ meq 2 (mmul 2 X Z) (mscale (ropp ro) Y) /\
  meq 2 (madd X Y) (mscale (radd ro ro) L).
Proof. exact (@pauli_algebra). Qed.
Print Assumptions C71_algebra.
(** The matrix documented as lowering operator, acting on columns as everywhere in the code, is not one; its adjoint, documented
    as the raising operator, lowers. *)
Theorem C71_lowering_refuted : forall (R : ring) (sx isy sz lo id : dense R), (ro : R) <> rz -> pauli (R := R) = (sx, isy, sz, lo, id) -> ~ lowers (of_dense sz) (of_dense lo).
Proof. exact (@not_lowers). Qed.
Print Assumptions C71_lowering_refuted.
Theorem C71_adjoint_lowers : forall (R : ring) (sx isy sz lo id : dense R), (forall x : R, radd x x = rz -> x = rz) -> pauli (R := R) = (sx, isy, sz, lo, id) ->
  lowers (of_dense sz) (fun i j => of_dense lo j i) /\ meq 2 (madj (of_dense lo)) (fun i j => of_dense lo j i).
Proof. exact (@transpose_lowers). Qed.
Print Assumptions C71_adjoint_lowers.
(** The documented order of [pauli(shape)] is lowering operator, Sz, identity; the first operator returned is not the lowering one. *)
Theorem C71_order_refuted : forall (G : abgroup) (R : ring) big signif x (T : btensor G R) p0 p1 sx isy sz lo id, (forall x, big x = false <-> x = rz) -> (ro : R) <> rz ->
  visible signif ro -> visible signif (ropp ro) -> op_shape x T -> sum_list (fst x) = 2 -> carries x 0 p0 -> carries x 1 p1 -> pauli (R := R) = (sx, isy, sz, lo, id) ->
  exists A B C, b_pauli big signif T = Ok (A, B, C) /\ ~ dense_form A lo /\ dense_form A sz /\ dense_form B lo.
Proof. exact (@pauli_order). Qed.
Print Assumptions C71_order_refuted.
Example C71_ex : exists sx isy sz lo id, pauli (R := ring_Z) = (sx, isy, sz, lo, id) /\ (ro : ring_Z) <> rz /\ (forall x : ring_Z, radd x x = rz -> x = rz) /\
  map (fun i => map (fun j => mmul 2 (of_dense sx) (of_dense isy) i j) [0; 1]) [0; 1] = [[-1; 0]; [0; 1]]%Z /\ map (mapply 2 (of_dense lo) Z.of_nat) [0; 1] = [1; 0]%Z.
Proof. do 5 eexists. split; [reflexivity|]. split; [discriminate|]. split; [intros x H; cbn in *; lia|]. split; vm_compute; reflexivity. Qed.
