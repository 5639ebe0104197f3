(** Property theorems about tensordot (C18, C60). [imax] stands for the largest int64 value: the hypothesis that no
    dimension has more sections than that holds of every tensor that exists in memory. *)
From Verif Require Import Base Quantity QuantityProofs FlatMap SpecFlatMap Ring Index SpecIndex Dense BTensor SpecBTensor
  BTensorThms BTensorEx BTensorArith Tensordot SpecTensordot TensordotProofs TensordotThms.

(** C18. Full claim: for all valid tensors with compatible contracted dimensions. True for operands of rank at least one. *)
Theorem C18_tensordot_partial : forall G R imax (T1 T2 : btensor G R) d1 d2, valid T1 -> valid T2 -> compatible T1 T2 d1 d2 ->
  0 < b_rank T1 -> 0 < b_rank T2 -> (forall s, In s (b_sbd T1 ++ b_sbd T2) -> s <= imax) ->
  exists T, tensordot imax T1 T2 d1 d2 = Ok T /\ valid T /\ tdot_meta T1 T2 d1 d2 T /\
    forall D1 D2, dense_form T1 D1 -> dense_form T2 D2 -> dense_form T (d_tdot D1 D2 d1 d2).
Proof. exact (@tensordot_spec). Qed.
Print Assumptions C18_tensordot_partial.
(** A rank zero operand with its one block: the loop over the columns never advances. *)
Theorem C18_scalar_refuted : forall G R imax (T1 T2 : btensor G R), valid T1 -> valid T2 -> b_rank T1 = 0 -> b_blocks T1 <> [] ->
  0 < b_rank T2 -> (forall s, In s (b_sbd T2) -> s <= imax) -> tensordot imax T1 T2 [] [] = UB.
Proof. exact (@tensordot_scalar). Qed.
Print Assumptions C18_scalar_refuted.
(** ... whatever the number of iterations granted. *)
Theorem C18_scalar_loops_refuted : forall G R imax (out : btensor G R) t l2 n fuel cap, sorted lexb l2 -> keys_ok imax n l2 -> 0 < n -> 0 < cap ->
  outer_loop imax 0 out fuel cap [([], t)] l2 [] = UB.
Proof. exact (@scalar_loop). Qed.
Print Assumptions C18_scalar_loops_refuted.

Definition exV : zt :=
  zB (q 1) 2 [2; 2] [2; 1; 1; 1] [q 0; q 1; q 0; q 1] [([0; 1], dl [2; 1] [1; 2]%Z); ([1; 0], dl [1; 1] [3]%Z)].
Definition exS : zt := zB (q 0) 0 [] [] [] [([], dl [] [2]%Z)].
Example C18_ex : valid exA /\ valid exV /\ compatible exA exV [1] [0] /\
  rmap elems (rbind (tensordot 10 exA exV [1] [0]) (@to_dense _ _)) = Ok [0; 11; 15; 0; 18; 0]%Z /\
  rmap (fun T : zt => proj1_sig (b_rule T)) (tensordot 10 exA exV [1] [0]) = Ok 1%Z.
Proof.
  split; [apply exA_valid|]. split; [ex_valid|]. split; [|split; vm_compute; reflexivity].
  split; [reflexivity|]. split; [repeat constructor; auto|]. split; [repeat constructor; auto|].
  split; [intros k [<-|[]]; cbn; lia|]. split; [intros k [<-|[]]; cbn; lia|]. intros [|j] Hj; [|cbn in Hj; lia].
  split; [reflexivity|]. intros [|[|s]] Hs; [apply sig_eq; vm_compute; reflexivity|apply sig_eq; vm_compute; reflexivity|change (Datatypes.S (Datatypes.S s) < 2) in Hs; lia].
Qed.
Example C18_scalar_ex : valid exS /\ valid exA /\ rmap (fun _ => tt) (tensordot 10 exS exA [] []) = UB.
Proof. split; [ex_valid|]. split; [apply exA_valid|]. vm_compute. reflexivity. Qed.

(** C60. Full claim: mismatched sections are rejected. True of the number of dimensions, repeated dimensions, numbers of
    sections and quantities; the sizes of the sections are not compared. *)
Theorem C60_rejects_partial : forall G R imax (T1 T2 : btensor G R) d1 d2, meta_ok T1 -> meta_ok T2 ->
  (forall k, In k d1 -> k < b_rank T1) -> (forall k, In k d2 -> k < b_rank T2) -> ~ linkable T1 T2 d1 d2 ->
  tensordot imax T1 T2 d1 d2 = Throw TorchError.
Proof. exact (@tensordot_rejects). Qed.
Print Assumptions C60_rejects_partial.
(** Contracting sizes 2, 3 with sizes 3, 2: the entries are paired by their row-major position. *)
Definition ex23 : zt := zB (q 0) 2 [1; 1] [2; 3] [q 0; q 0] [([0; 0], dl [2; 3] [1; 2; 3; 4; 5; 6]%Z)].
Definition ex32 : zt := zB (q 0) 2 [1; 1] [3; 2] [q 0; q 0] [([0; 0], dl [3; 2] [1; 0; 0; 0; 0; 2]%Z)].
Theorem C60_sizes_refuted : exists T1 T2 : zt, valid T1 /\ valid T2 /\ legs T1 = [[2]; [3]] /\ legs T2 = [[3]; [2]] /\
  ~ compatible T1 T2 [0; 1] [0; 1] /\ rmap elems (rbind (tensordot 10 T1 T2 [0; 1] [0; 1]) (@to_dense _ _)) = Ok [13%Z].
Proof.
  exists ex23, ex32. split; [ex_valid|]. split; [ex_valid|]. split; [reflexivity|]. split; [reflexivity|]. split.
  - intros (_ & _ & _ & _ & _ & H). destruct (H 0 ltac:(cbn; lia)) as [H' _]. discriminate.
  - vm_compute. reflexivity.
Qed.
Print Assumptions C60_sizes_refuted.
Example C60_ex : meta_ok exA /\ ~ linkable exA exA [0] [0] /\ rmap (fun _ => tt) (tensordot 10 exA exA [0] [0]) = Throw TorchError.
Proof.
  split; [repeat split|]. split; [|vm_compute; reflexivity]. intros (_ & _ & _ & H). destruct (H 0 ltac:(cbn; lia)) as [_ H'].
  specialize (H' 1 ltac:(change (1 < 2); lia)). apply (f_equal (@proj1_sig _ _)) in H'. vm_compute in H'. discriminate.
Qed.
