(** Property theorems about the dimension helpers (C52) and the checks on chains of tensors (C45). *)
From Verif Require Import Base Quantity QuantityProofs FlatMap SpecFlatMap Ring Index SpecIndex Dense BTensor SpecBTensor
  BTensorThms BTensorEx BTensorArith Tensordot ChainCheck SpecChainCheck ChainCheckProofs.

(** C52. [concat], [prod] (while every partial product fits in 64 bits) and [slice]. *)
Theorem C52_concat : forall ls, dims_concat ls = concat ls.
Proof. exact concat_spec. Qed.
Print Assumptions C52_concat.
Theorem C52_prod : forall l, prefixes_fit l -> dims_prod l = Ok (zprod l).
Proof. exact prod_spec. Qed.
Print Assumptions C52_prod.
Theorem C52_slice : forall A (d : A) l s n,
  (s + n <= length l -> exists m, dims_slice l s n = Ok m /\ length m = n /\ forall k, k < n -> nth k m d = nth (s + k) l d) /\
  (length l < s + n -> dims_slice l s n = Throw TorchError).
Proof. exact (@slice_spec). Qed.
Print Assumptions C52_slice.
(** [reverse]: the reversed list comes first, followed by as many zeros. *)
Theorem C52_reverse_partial : forall l, firstn (length l) (dims_reverse l) = rev l /\ length (dims_reverse l) = 2 * length l.
Proof. exact reverse_partial. Qed.
Print Assumptions C52_reverse_partial.
Theorem C52_reverse_refuted : exists l, dims_reverse l <> rev l.
Proof. exists [2]%Z. discriminate. Qed.
Print Assumptions C52_reverse_refuted.
(** The header announces the product over the interval [start, n[; the last argument is a number of elements. *)
Theorem C52_interval_refuted : exists l s n, s <= n <= length l /\ dims_prod_slice l s n <> Ok (zprod (firstn (n - s) (skipn s l))).
Proof. exists [2; 3; 4; 5]%Z, 1, 3. split; [cbn; lia|]. vm_compute. discriminate. Qed.
Print Assumptions C52_interval_refuted.
Example C52_ex : prefixes_fit [2; 3; 4]%Z /\ dims_concat [[2; 3]; []; [4]]%Z = [2; 3; 4]%Z /\ dims_prod [2; 3; 4]%Z = Ok 24%Z /\
  dims_slice [2; 3; 4] 1 2 = Ok [3; 4] /\ dims_reverse [2; 3]%Z = [3; 2; 0; 0]%Z.
Proof. split; [|repeat split]. intros [|[|[|k]]]; cbn; [lia|lia|lia|]. rewrite firstn_nil. cbn. lia. Qed.

(** C45. Full claim: for every non-empty list of tensors. True of dense tensors of rank at least three ([sizes()[2]] is read
    unchecked otherwise). *)
Theorem C45_dense_partial : forall r l, l <> [] -> (forall t, In t l -> 3 <= length t) ->
  exists b, check_ranks r l = Ok b /\ (b = true <-> sizes_chain r l).
Proof. exact check_ranks_spec. Qed.
Print Assumptions C45_dense_partial.
Theorem C45_constructor_partial : forall l oc, l <> [] -> (forall t, In t l -> 3 <= length t) ->
  (sizes_chain 3 l /\ oc < length l -> mps_ctor l oc = Ok (l, oc)) /\
  (~ (sizes_chain 3 l /\ oc < length l) -> mps_ctor l oc = Throw InvalidArgument).
Proof. exact mps_ctor_spec. Qed.
Print Assumptions C45_constructor_partial.
Theorem C45_low_rank_refuted : forall r t l, length t < 3 -> check_ranks r (t :: l) = UB.
Proof. exact check_ranks_short. Qed.
Print Assumptions C45_low_rank_refuted.
Example C45_dense_ex : sizes_chain 3 [[1; 2; 4]; [4; 3; 1]] /\ check_ranks 3 [[1; 2; 4]; [4; 3; 1]] = Ok true /\
  check_ranks 3 [[1; 2; 4]; [5; 3; 1]] = Ok false /\ check_ranks 4 [[1; 2; 4]] = Ok false.
Proof. split; [|repeat split]. split; [intros t [<-|[<-|[]]]; reflexivity|]. split; [reflexivity|exact I]. Qed.

(** Block tensors: the numbers of sections and the quantities of neighbouring bonds are compared, not the section sizes. *)
Theorem C45_block_partial : forall G R r (l : list (btensor G R)), 3 <= r -> l <> [] -> (forall T, In T l -> meta_ok T) ->
  exists b, b_check_ranks r l = Ok b /\ (b = true <-> block_chain r (bond_quantities 2 0) l).
Proof. exact (@b_check_ranks_spec). Qed.
Print Assumptions C45_block_partial.
Definition exSite (s t : nat) : zt := zB (q 0) 3 [1; 1; 1] [s; 1; t] [q 0; q 0; q 0] [].
Theorem C45_sizes_refuted : exists l : list zt, (forall T, In T l -> valid T) /\ b_check_ranks 3 l = Ok true /\ ~ block_chain 3 (bond_full 2 0) l.
Proof.
  exists [exSite 1 2; exSite 3 1]. split; [intros T [<-|[<-|[]]]; ex_valid|]. split; [vm_compute; reflexivity|].
  intros [_ [[_ H] _]]. discriminate.
Qed.
Print Assumptions C45_sizes_refuted.
Example C45_block_ex : (forall T, In T [exSite 1 2; exSite 2 1] -> meta_ok T) /\ block_chain 3 (bond_quantities 2 0) [exSite 1 2; exSite 2 1].
Proof.
  split; [intros T [<-|[<-|[]]]; repeat split|]. split; [intros T [<-|[<-|[]]]; reflexivity|]. split; [|exact I].
  split; [reflexivity|]. intros [|s] Hs; [apply sig_eq; vm_compute; reflexivity|cbn in Hs; lia].
Qed.
