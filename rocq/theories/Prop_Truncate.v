(** Property theorems about the truncation of dense decompositions (C37-C39). *)
From Verif Require Import Base Truncate SpecTruncate TruncateProofs.

(** C37. *)
Theorem C37_last_index : forall (W : weights) X (wt : X -> W) L d thr mn mx,
  rect L d -> 1 <= L -> (Z.of_nat L <= 2 ^ 63)%Z -> (1 <= mn <= mx)%Z ->
  exists k, compute_last_index wt L d thr mn mx = Some (Ok (Z.of_nat k - 1)%Z) /\
    (Z.min mn (Z.of_nat L) <= Z.of_nat k <= mx)%Z /\ k <= L /\
    (k < L -> exceeds (lost_after wt k) d thr -> Z.of_nat k = mx) /\
    (forall j, j < k -> (mn <= Z.of_nat j)%Z -> exceeds (lost_after wt j) d thr).
Proof. exact @last_index_spec. Qed.
Print Assumptions C37_last_index.
Theorem C37_truncate : forall (W : weights) X (wt : X -> W) L u d v thr mn mx,
  rect L d -> rect L u -> rect L v -> 1 <= L -> (Z.of_nat L <= 2 ^ 63)%Z -> (1 <= mn <= mx)%Z ->
  exists k, truncate3 wt L u d v thr mn mx = Some (Ok (map (firstn k) u, map (firstn k) d, map (firstn k) v)) /\
    (Z.min mn (Z.of_nat L) <= Z.of_nat k <= mx)%Z /\ k <= L /\
    (k < L -> exceeds (lost_after wt k) d thr -> Z.of_nat k = mx) /\
    (forall j, j < k -> (mn <= Z.of_nat j)%Z -> exceeds (lost_after wt j) d thr).
Proof. exact @truncate3_spec. Qed.
Print Assumptions C37_truncate.
(** Outside the claim: a minimum of zero makes every call that could discard everything throw. *)
Theorem C37_min_zero_throws : forall (W : weights) X (wt : X -> W) L d thr mx,
  rect L d -> 1 <= L -> (Z.of_nat L <= 2 ^ 63)%Z -> (1 <= mx <= 2 ^ 63)%Z ->
  ~ exceeds (lost_after wt 0) d thr -> compute_last_index wt L d thr 0 mx = Some (Throw TorchError).
Proof. exact @last_index_min_zero. Qed.
Print Assumptions C37_min_zero_throws.
Example C37_ex : rect 4 [[9; 4; 1; 0]; [3; 3; 2; 1]]%N /\
  compute_last_index (fun x => x : w_N) 4 [[9; 4; 1; 0]; [3; 3; 2; 1]]%N 2%N 1 10 = Some (Ok 2%Z) /\
  compute_last_index (fun x => x : w_N) 4 [[9; 4; 1; 0]; [3; 3; 2; 1]]%N 2%N 1 2 = Some (Ok 1%Z).
Proof. split; [intros r [<-|[<-|[]]]; reflexivity|split; vm_compute; reflexivity]. Qed.

(** C38. Full claim: at least [min_size] and at most [max_size] values are kept and the rejected weight is below the
    threshold. True bounds for [2 <= min <= max <= length]: one value less than the minimum may be kept. *)
Theorem C38_first_index_partial : forall (W : weights) X (wt : X -> W) L d thr mn mx,
  rect L d -> (Z.of_nat L <= 2 ^ 63)%Z -> (2 <= mn <= mx)%Z -> (mx <= Z.of_nat L)%Z ->
  exists k, compute_first_index_ascending wt L d thr mn mx = Some (Ok (Z.of_nat k)) /\ k < L /\
    (mn - 1 <= Z.of_nat L - Z.of_nat k <= mx)%Z /\
    ((Z.of_nat L - Z.of_nat k = mn - 1)%Z \/ exceeds (lost_before wt (S k)) d thr) /\
    (0 < k -> exceeds (lost_before wt k) d thr -> (Z.of_nat L - Z.of_nat k = mx)%Z).
Proof. exact @first_index_spec. Qed.
Print Assumptions C38_first_index_partial.
Theorem C38_first_index_refuted : exists (d : list (list N)), rect 3 d /\
  compute_first_index_ascending (fun x => x : w_N) 3 d 10%N 2 3 = Some (Ok 2%Z).
Proof. exact first_index_refuted. Qed.
Print Assumptions C38_first_index_refuted.
(** With the default bounds of the callers every list makes the call throw. *)
Theorem C38_default_throws_refuted : forall (W : weights) X (wt : X -> W) L d thr, rect L d -> 1 <= L -> (Z.of_nat L < 2 ^ 62)%Z ->
  compute_first_index_ascending wt L d thr 1 (2 ^ 64 - 1) = Some (Throw TorchError).
Proof. exact @first_index_default. Qed.
Print Assumptions C38_default_throws_refuted.
Example C38_ex : rect 4 [[0; 1; 4; 9]]%N /\ compute_first_index_ascending (fun x => x : w_N) 4 [[0; 1; 4; 9]]%N 2%N 2 4 = Some (Ok 2%Z).
Proof. split; [intros r [<-|[]]; reflexivity|vm_compute; reflexivity]. Qed.

(** C39. Full claim: the number kept is decided by the eigenvalues and the outputs are in the order given. The order is right;
    the number is decided by the eigenvectors. *)
Theorem C39_pair_partial : forall (W : weights) X (wt : X -> W) L d u thr mn mx,
  rect L d -> rect L u -> 1 <= L -> (Z.of_nat L <= 2 ^ 63)%Z -> (1 <= mn <= mx)%Z ->
  exists k, truncate_pair wt L d u thr mn mx = Some (Ok (map (firstn k) d, map (firstn k) u)) /\
    compute_last_index wt L u thr mn mx = Some (Ok (Z.of_nat k - 1)%Z).
Proof. exact @truncate_pair_spec. Qed.
Print Assumptions C39_pair_partial.
Theorem C39_pair_refuted : exists (d u : list (list N)) d' u', rect 2 d /\ rect 2 u /\
  compute_last_index (fun x => x : w_N) 2 d 0%N 1 10 = Some (Ok 0%Z) /\
  truncate_pair (fun x => x : w_N) 2 d u 0%N 1 10 = Some (Ok (d', u')) /\ map (@length N) d' = [2].
Proof. exact truncate_pair_refuted. Qed.
Print Assumptions C39_pair_refuted.
Example C39_ex : rect 2 [[5; 0]]%N /\ rect 2 [[1; 0]; [0; 1]]%N /\
  truncate_pair (fun x => x : w_N) 2 [[5; 0]]%N [[1; 0]; [0; 1]]%N 1%N 1 10 = Some (Ok ([[5]], [[1]; [0]])%N).
Proof.
  split; [intros r [<-|[]]; reflexivity|]. split; [intros r [<-|[<-|[]]]; reflexivity|vm_compute; reflexivity].
Qed.
