(** Displacement of the orthogonality centre: the state and the gauge (C44). The dense decomposition of matrices, [torch::svd], is
    an arbitrary function that decomposes every matrix with real values; that its factors are isometries is only asked of the
    matrices it is called on. [imax] is the largest int64 value. *)
From Verif Require Import Base Quantity QuantityProofs Ring Index SpecIndex Dense BTensor SpecBTensor BTensorEx SpecChain SpecEdges SpecSvd SvdEx MoveOc SpecMove MoveInst MoveEx.
From Coq Require Import Lia.

(** C44 for dense tensors: the displacement succeeds, the amplitudes are the same, tensors beyond the path are untouched, and a
    chain with sites [lo] to [hi] in the gauge of [oc] ends in the gauge of [i], on at least the same sites and those on the path. *)
Theorem C44_dense : forall (R : ring) dsvd (sites : list (dense R)) x y oc i,
  (forall M, (exists m n, dsh M = [m; n]) -> thin M (dsvd M) /\ real_entries (snd (fst (dsvd M)))) ->
  mps_fit (@dsh R) (fun k => k) sites x y -> oc < length sites -> i < length sites ->
  exists sites', mps_move dsvd sites (Z.of_nat oc) (Z.of_nat i) = Ok (sites', Z.of_nat i) /\ mps_fit (@dsh R) (fun k => k) sites' x y /\ length sites' = length sites /\
    same_state sites sites' x y /\ (forall j, j < Nat.min i oc \/ Nat.max i oc < j -> nth_error sites' j = nth_error sites j) /\
    ((forall j s A M, i < j <= oc \/ oc <= j < i -> mps_move dsvd sites (Z.of_nat oc) (Z.of_nat j) = Ok (s, Z.of_nat j) -> nth_error s j = Some A ->
        cut_matrix (if i <? oc then 1 else 2) A M -> isometries M (dsvd M)) ->
     forall lo hi, centred lo hi oc sites -> centred (Nat.min lo i) (Nat.max hi (S i)) i sites').
Proof. exact mps_move_dense. Qed.
Print Assumptions C44_dense.
(** C44 for block tensors. Full claim: the same, and the total quantity is kept. Missing: states that are zero (below). *)
Theorem C44_block_partial : forall (G : abgroup) (R : ring) imax dsvd (sites : list (btensor G R)) Ds x y oc i,
  (forall M, (exists m n, dsh M = [m; n]) -> thin M (dsvd M) /\ real_entries (snd (fst (dsvd M)))) ->
  Forall2 (stored imax) sites Ds -> mps_fit (@blegs G R) (@bdual G) sites x y -> ~ zero_state Ds (bsz G x) (bsz G y) -> oc < length sites -> i < length sites ->
  exists sites' Ds', bmps_move imax dsvd sites (Z.of_nat oc) (Z.of_nat i) = Ok (sites', Z.of_nat i) /\ Forall2 (stored imax) sites' Ds' /\ mps_fit (@blegs G R) (@bdual G) sites' x y /\
    length sites' = length sites /\ same_state Ds Ds' (bsz G x) (bsz G y) /\ qprod G (map (@b_rule G R) sites') = qprod G (map (@b_rule G R) sites) /\
    (forall j, j < Nat.min i oc \/ Nat.max i oc < j -> nth_error sites' j = nth_error sites j) /\
    ((forall j s A, i < j <= oc \/ oc <= j < i -> bmps_move imax dsvd sites (Z.of_nat oc) (Z.of_nat j) = Ok (s, Z.of_nat j) -> nth_error s j = Some A ->
        forall D M, dense_form A D -> sector_matrix (if i <? oc then 1 else 2) A D M -> isometries M (dsvd M)) ->
     forall lo hi, centred lo hi oc Ds -> centred (Nat.min lo i) (Nat.max hi (S i)) i Ds').
Proof. intros G R imax dsvd sites Ds x y oc i H. exact (@bmps_move_ok G R imax dsvd H sites Ds x y oc i). Qed.
Print Assumptions C44_block_partial.
(** A valid chain for the zero state: the decomposition of a tensor without blocks reads quantities that do not exist. *)
Theorem C44_zero_refuted : exists (G : abgroup) (R : ring) (sites : list (btensor G R)) Ds x y, Forall2 (stored 100) sites Ds /\ mps_fit (@blegs G R) (@bdual G) sites x y /\
  length sites = 2 /\ (forall T, In T sites -> nonempty T) /\ zero_state Ds (bsz G x) (bsz G y) /\ forall dsvd, bmps_move 100 dsvd sites 1 0 = UB.
Proof. exact zero_moves. Qed.
Print Assumptions C44_zero_refuted.
(** Positions off the chain are refused, before anything is changed. *)
Theorem C44_block_out : forall (G : abgroup) (R : ring) imax dsvd (sites : list (btensor G R)) oc i,
  (i < 0 \/ Z.of_nat (length sites) <= i)%Z -> bmps_move imax dsvd sites oc i = Throw InvalidArgument.
Proof. exact bmps_out. Qed.
Print Assumptions C44_block_out.
Theorem C44_dense_out : forall (R : ring) dsvd (sites : list (dense R)) oc i,
  (i < 0 \/ Z.of_nat (length sites) <= i)%Z -> mps_move dsvd sites oc i = Throw InvalidArgument.
Proof. exact mps_out. Qed.
Print Assumptions C44_dense_out.

(** A decomposition of every matrix, with real values. *)
Example C44_oracle_ex : forall (R : ring) (M : dense R), (exists m n, dsh M = [m; n]) -> thin M (one_sided M) /\ real_entries (snd (fst (one_sided M))).
Proof. intros R M H. split; [apply one_sided_thin, H|apply one_sided_real]. Qed.
(** Three dense sites with bonds of two and three values, moved over two bonds. *)
Definition mvD : list (dense ring_Z) := [dl [1; 2; 2] [1; 2; 3; 4]%Z; dl [2; 2; 3] [1; 0; 2; -1; 3; 1; 2; 2; 0; 5; 1; 1]%Z; dl [3; 2; 1] [1; 2; 3; 4; 5; 6]%Z].
Definition amps (l : list (dense ring_Z)) : list Z := map (fun c => amp l c 0 0) (idxs [2; 2; 2]).
Example C44_dense_ex : mps_fit (@dsh ring_Z) (fun k => k) mvD 1 1 /\
  rmap (fun '(l, o) => (map (@dsh _) l, o, amps l)) (mps_move (@one_sided _) mvD 2 0) = Ok ([[1; 2; 2]; [2; 2; 2]; [2; 2; 1]], 0%Z, amps mvD) /\
  rmap (fun '(l, o) => (map (@dsh _) l, o, amps l)) (mps_move (@one_sided _) mvD 0 2) = Ok ([[1; 2; 2]; [2; 2; 3]; [3; 2; 1]], 2%Z, amps mvD) /\
  amps mvD = [27; 38; 39; 56; 65; 90; 91; 128]%Z.
Proof. split; [cbn; eauto 12|]. repeat split; vm_compute; reflexivity. Qed.
(** Two block sites; all the hypotheses hold, those on the isometries as well, for a decomposition of all matrices. *)
Example C44_block_ex : (forall M : dense ring_Z, (exists m n, dsh M = [m; n]) -> thin M (both_sided M) /\ real_entries (snd (fst (both_sided M)))) /\
  (exists Ds, Forall2 (stored 100) [mvA; mvB] Ds /\ ~ zero_state Ds 1 1) /\ mps_fit (@blegs _ ring_Z) (@bdual _) [mvA; mvB] mvx mvx /\
  (forall D M, sector_matrix 1 mvB D M -> isometries M (both_sided M)) /\ (forall D M, sector_matrix 2 mvA D M -> isometries M (both_sided M)) /\
  map (fun T => rmap elems (to_dense T)) [mvA; mvB] = [Ok [2; 0; 0; 3]; Ok [0; 5; 7; 0]]%Z /\
  show_sites (bmps_move 100 (@both_sided _) [mvA; mvB] 1 0) = Ok ([Ok [10; 0; 0; 21]; Ok [0; 1; 1; 0]]%Z, 0%Z) /\
  show_sites (bmps_move 100 (@both_sided _) [mvA; mvB] 0 1) = Ok ([Ok [1; 0; 0; 1]; Ok [0; 10; 21; 0]]%Z, 1%Z).
Proof.
  split; [intros M H; split; [apply both_sided_thin, H|apply both_sided_real]|]. split; [exact mv_stored|]. split; [exact mv_fit|]. split; [exact mv_isoB|]. split; [exact mv_isoA|]. repeat split; vm_compute; reflexivity.
Qed.
