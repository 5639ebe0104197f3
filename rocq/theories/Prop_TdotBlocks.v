(** The blocks stored by tensordot (C80). [imax]: as in C18. *)
From Verif Require Import Base Quantity QuantityProofs FlatMap SpecFlatMap Ring Index SpecIndex Dense BTensor SpecBTensor
  BTensorThms BTensorEx BTensorArith Tensordot SpecTensordot TensordotProofs TensordotThms Prop_Tensordot.

(** C80. Full claim: for all valid tensors with compatible contracted dimensions, the blocks of the contraction are those of the pairs of stored blocks in the same
    sections of the contracted dimensions, whatever the values. True for operands of rank at least one (for the others see C18). *)
Theorem C80_blocks_partial : forall G R imax (T1 T2 : btensor G R) d1 d2, valid T1 -> valid T2 -> compatible T1 T2 d1 d2 ->
  0 < b_rank T1 -> 0 < b_rank T2 -> (forall s, In s (b_sbd T1 ++ b_sbd T2) -> s <= imax) ->
  exists T, tensordot imax T1 T2 d1 d2 = Ok T /\ tdot_blocks T1 T2 d1 d2 T.
Proof.
  intros G R imax T1 T2 d1 d2 h1 h2 h3 h4 h5 h6. destruct (tensordot_full h1 h2 h3 h4 h5 h6) as (T & c1 & _ & _ & c2 & _). eauto.
Qed.
Print Assumptions C80_blocks_partial.

(** Two pairs of blocks for one block of the result, with opposite values: a block of zeros is stored. *)
Definition exP : zt :=
  zB (q 0) 2 [1; 2] [1; 1; 1] [q 0; q 0; q 0] [([0; 0], dl [1; 1] [1]%Z); ([0; 1], dl [1; 1] [1]%Z)].
Definition exM : zt :=
  zB (q 0) 2 [2; 2] [1; 1; 1; 1] [q 0; q 0; q 0; q 1] [([0; 0], dl [1; 1] [1]%Z); ([1; 0], dl [1; 1] [-1]%Z)].
Example C80_ex : valid exP /\ valid exM /\ compatible exP exM [1] [0] /\
  rmap (fun T : zt => map fst (b_blocks T)) (tensordot 10 exP exM [1] [0]) = Ok [[0; 0]] /\
  rmap elems (rbind (tensordot 10 exP exM [1] [0]) (@to_dense _ _)) = Ok [0; 0]%Z.
Proof.
  split; [ex_valid|]. split; [ex_valid|]. split; [|split; vm_compute; reflexivity].
  split; [reflexivity|]. split; [repeat constructor; auto|]. split; [repeat constructor; auto|].
  split; [intros k [<-|[]]; cbn; lia|]. split; [intros k [<-|[]]; cbn; lia|]. intros [|j] Hj; [|cbn in Hj; lia].
  split; [reflexivity|]. intros [|[|s]] Hs; [apply sig_eq; vm_compute; reflexivity|apply sig_eq; vm_compute; reflexivity|change (Datatypes.S (Datatypes.S s) < 2) in Hs; lia].
Qed.
