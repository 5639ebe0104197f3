(** Property theorems about reshape and reshape_as (C23, C61). *)
From Verif Require Import Base Quantity QuantityProofs FlatMap SpecFlatMap Ring Index SpecIndex Dense BTensor SpecBTensor
  BTensorThms BTensorEx BTensorArith Tensordot Reshape SpecReshape ReshapeProofs ReshapeThms.

(** C23. Full claim: for every valid tensor and every grouping. True for rank at least one when no dimension is without
    sections. *)
Theorem C23_reshape_partial : forall G R (T : btensor G R) gl, valid T -> grouping gl (b_rank T) -> 0 < b_rank T ->
  (forall n, In n (b_sbd T) -> 0 < n) ->
  exists S, reshape T (boundaries gl) = Ok S /\ valid S /\ regrouped gl T S /\
    forall O, same_meta T O -> exists T2, reshape_as false S O = Ok T2 /\ valid T2 /\ same_meta T T2 /\ same_blocks T T2.
Proof. exact (@reshape_back). Qed.
Print Assumptions C23_reshape_partial.
(** The empty grouping of a rank zero tensor. *)
Theorem C23_rank_zero_refuted : forall G R (T : btensor G R), valid T -> b_rank T = 0 ->
  grouping [] (b_rank T) /\ reshape T (boundaries []) = UB.
Proof. exact (@reshape_rank_zero). Qed.
Print Assumptions C23_rank_zero_refuted.

Definition exR3 : zt :=
  zB (q 1) 3 [2; 1; 2] [1; 2; 2; 1; 1] [q 0; q 1; q 0; q 0; q 1]
    [([0; 0; 1], dl [1; 2; 1] [1; 2]%Z); ([1; 0; 0], dl [2; 2; 1] [3; 4; 5; 6]%Z)].
Example C23_ex : valid exR3 /\ grouping [2; 1] (b_rank exR3) /\ boundaries [2; 1] = [2] /\
  rmap (fun T : zt => (legs T, map fst (b_blocks T))) (reshape exR3 [2]) = Ok ([[2; 4]; [1; 1]], [[0; 1]; [1; 0]]) /\
  rmap elems (rbind (reshape exR3 [2]) (@to_dense _ _)) = Ok [0; 1; 0; 2; 3; 0; 4; 0; 5; 0; 6; 0]%Z.
Proof.
  split; [ex_valid|]. split; [split; [intros n [<-|[<-|[]]]; lia|reflexivity]|]. split; [reflexivity|].
  split; vm_compute; reflexivity.
Qed.
Example C23_zero_ex : valid (zB (q 0) 0 [] [] [] [([], dl [] [2]%Z)]).
Proof. ex_valid. Qed.

(** C61. [reshape_as] accepts exactly the shapes whose blocks have, in row-major order, the same volumes and quantities. *)
Theorem C61_accepts : forall G R (T O : btensor G R), valid T -> meta_ok O -> (forall n, In n (b_sbd T) -> 0 < n) ->
  same_volumes T O -> same_fluxes T O ->
  exists S, reshape_as false T O = Ok S /\ valid S /\ b_rule S = b_rule T /\ legs S = legs O /\ qlegs S = qlegs O /\ same_entries T S.
Proof. exact (@reshape_as_accepts). Qed.
Print Assumptions C61_accepts.
Theorem C61_rejects : forall G R (T O : btensor G R), valid T -> meta_ok O -> (forall n, In n (b_sbd T) -> 0 < n) ->
  ~ (same_volumes T O /\ same_fluxes T O) -> reshape_as false T O = Throw InvalidArgument.
Proof. exact (@reshape_as_rejects). Qed.
Print Assumptions C61_rejects.
(** Same volumes, other quantities: refused; the tensor's own shape: accepted. *)
Definition exRo : zt := zB (q 0) 2 [2; 2] [1; 2; 2; 1] [q 0; q 2; q 0; q (-1)] [].
Example C61_ex : valid exA /\ meta_ok exRo /\ rmap (fun _ => tt) (reshape_as false exA exRo) = Throw InvalidArgument /\
  rmap elems (rbind (reshape_as false exA exB) (@to_dense _ _)) = Ok [3; 4; 0; 0; 0; 5; 0; 0; 6]%Z.
Proof. split; [apply exA_valid|]. split; [repeat split|]. split; vm_compute; reflexivity. Qed.
