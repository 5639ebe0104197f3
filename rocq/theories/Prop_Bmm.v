(** Batched matrix products (C34). *)
From Verif Require Import Base Quantity QuantityProofs Ring Index SpecIndex Dense BTensor SpecBTensor BTensorThms BTensorEx SpecEdges Bmm SpecBmm BmmMain.
From Coq Require Import Lia.

(** C34. Full claim: the product of two compatible tensors, of any rank, is valid and its dense form is the batched product of
    the dense forms. Missing: tensors with an empty dimension, of which the claim is false (below). *)
Theorem C34_bmm_partial : forall (G : abgroup) (R : ring) (A B : btensor G R), valid A -> valid B -> bmm_ok A B -> nonempty A -> nonempty B ->
  exists C, bmm A B = Ok C /\ valid C /\ bmm_meta A B C /\ forall DA DB, dense_form A DA -> dense_form B DB -> dense_form C (d_bmm DA DB).
Proof. exact (@bmm_thm). Qed.
Print Assumptions C34_bmm_partial.
(** All other pairs are refused. *)
Theorem C34_incompatible_partial : forall (G : abgroup) (R : ring) (A B : btensor G R), valid A -> valid B -> nonempty A -> nonempty B ->
  ~ bmm_ok A B -> bmm A B = Throw InvalidArgument.
Proof. exact (@bmm_rejects). Qed.
Print Assumptions C34_incompatible_partial.
(** A section of size zero that makes up a whole dimension: compatible tensors are refused. *)
Theorem C34_empty_refuted : forall (G : abgroup) (R : ring) (A B : btensor G R), valid A -> valid B -> bmm_ok A B -> 2 < b_rank A ->
  (forall n, In n (b_sbd A) \/ In n (b_sbd B) -> 0 < n) -> ~ nonempty A \/ ~ nonempty B -> bmm A B = Throw InvalidArgument.
Proof. exact (@bmm_empty). Qed.
Print Assumptions C34_empty_refuted.

(** Two batches of sizes 1 and 2; in the second one a row has no partner in some columns. *)
Definition exP : zt := zB (q 0) 3 [2; 2; 2] [1; 2; 1; 2; 2; 1] [q 0; q 1; q 0; q 1; q 0; q (-1)]
  [([0; 0; 0], dl [1; 1; 2] [1; 2]%Z); ([0; 1; 1], dl [1; 2; 1] [3; 4]%Z); ([1; 0; 1], dl [2; 1; 1] [5; 6]%Z)].
Definition exQ : zt := zB (q 0) 3 [2; 2; 2] [1; 2; 2; 1; 1; 1] [q 0; q 0; q 0; q 1; q 0; q (-1)]
  [([0; 0; 0], dl [1; 2; 1] [7; 8]%Z); ([0; 1; 1], dl [1; 1; 1] [9]%Z); ([1; 0; 0], dl [2; 2; 1] [1; 2; 3; 4]%Z); ([1; 1; 1], dl [2; 1; 1] [10; 11]%Z)].
Definition exM : zt := zB (q 0) 2 [2; 1] [2; 1; 2] [q 0; q 1; q 0] [([0; 0], dl [2; 2] [1; 2; 3; 4]%Z)].
Ltac bmm_ok_tac := split; [reflexivity|]; split; [cbn; lia|]; split; [reflexivity|]; split; [reflexivity|]; cbn;
  intros s Hs; destruct s as [|[|]]; try lia; apply sig_eq; reflexivity.
Ltac nonempty_tac := intros l Hl; cbn in Hl; repeat (destruct Hl as [<-|Hl]; [cbn; lia|]); destruct Hl.
Example C34_ex : valid exP /\ valid exQ /\ bmm_ok exP exQ /\ nonempty exP /\ nonempty exQ /\ valid exA /\ valid exM /\ bmm_ok exA exM /\ nonempty exA /\ nonempty exM /\
  rmap elems (rbind (bmm exP exQ) (@to_dense _ _)) = Ok [23; 0; 0; 27; 0; 36; 0; 50; 0; 0; 0; 0; 0; 66; 0; 0; 0; 0]%Z /\
  rmap elems (rbind (to_dense exP) (fun x => rmap (d_bmm x) (to_dense exQ))) = Ok [23; 0; 0; 27; 0; 36; 0; 50; 0; 0; 0; 0; 0; 66; 0; 0; 0; 0]%Z /\
  rmap elems (rbind (bmm exA exM) (@to_dense _ _)) = Ok [15; 22; 0; 0; 0; 0]%Z.
Proof.
  split; [ex_valid|]. split; [ex_valid|]. split; [bmm_ok_tac|]. split; [nonempty_tac|]. split; [nonempty_tac|]. split; [ex_valid|]. split; [ex_valid|].
  split; [bmm_ok_tac|]. split; [nonempty_tac|]. split; [nonempty_tac|]. repeat split; vm_compute; reflexivity.
Qed.
(** The quantities of the contracted dimensions are not inverse: refused. *)
Example C34_incompatible_ex : valid exA /\ nonempty exA /\ ~ bmm_ok exA exA /\ rmap (fun _ => tt) (bmm exA exA) = Throw InvalidArgument.
Proof.
  split; [ex_valid|]. split; [nonempty_tac|]. split; [intros (_ & _ & _ & H & _); discriminate|vm_compute; reflexivity].
Qed.
Definition exE : zt := zB (q 0) 3 [1; 1; 1] [1; 1; 0] [q 0; q 0; q 0] [].
Definition exF : zt := zB (q 0) 3 [1; 1; 1] [1; 0; 1] [q 0; q 0; q 0] [].
Example C34_empty_ex : valid exE /\ valid exF /\ bmm_ok exE exF /\ ~ nonempty exE /\ rmap (fun _ => tt) (bmm exE exF) = Throw InvalidArgument.
Proof.
  split; [ex_valid|]. split; [ex_valid|]. split; [bmm_ok_tac|]. split; [intros H; assert (K : 0 < sum_list [0]) by (apply H; cbn; auto); cbn in K; lia|vm_compute; reflexivity].
Qed.
