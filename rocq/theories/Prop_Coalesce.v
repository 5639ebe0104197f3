(** C72: [bMPO::coalesce] with a cutoff that only drops zeros. *)
From Verif Require Import Base Quantity QuantityProofs Ring Index SpecIndex Dense BTensor SpecBTensor BTensorEx SpecEdges SpecSvd Truncate SpecTruncate BTrunc SpecBTrunc BTruncEx SpecChain SpecSector MoveEx Coalesce SpecCoalesce CoalesceThms CoalesceEx.

(** The operator, its outer bonds, its physical dimensions and the rules of its tensors are kept, and the inner bonds are compressed. Full claim: for every
    chain with at least one site. Missing: chains where some quantity of an inner bond does not occur in the operator of the sites
    on its left (there the singular values of a sector are all zero), and the undefined behaviour below. [dsvd] stands for
    [torch::svd], [exact_cut] says that the cutoff drops zeros only, as 0 does. *)
Theorem C72_coalesce_partial : forall (G : abgroup) (R : ring) imax (W : weights) (gtb : R -> R -> bool) lower (wt : R -> W), total_order gtb -> forall dsvd thr,
  (forall l, wgtb (total wt l) thr = true <-> exists x, In x l /\ x <> rz) -> (forall x, gtb x rz = true -> gtb x (lower x) = true) ->
  (forall M, (exists m n, dsh M = [m; n]) -> thin M (dsvd M) /\ descending gtb (entries (snd (fst (dsvd M)))) /\ forall x, In x (entries (snd (fst (dsvd M)))) -> gtb rz x = false) ->
  forall (sites : list (btensor G R)) Ds x y, Forall2 (stored imax) sites Ds -> op_chain (@blegs G R) (@bdual G) sites x y -> sites <> [] -> bonds_reached sites Ds (bsz G x) ->
  (forall i B, nth_error sites i = Some B -> S i < length sites -> (Z.of_nat (bsz G (right_leg B)) <= 2 ^ 63)%Z) ->
  exists sites' Ds', coalesce imax gtb lower wt dsvd sites thr = Some (Ok sites') /\ Forall2 (stored imax) sites' Ds' /\ op_chain (@blegs G R) (@bdual G) sites' x y /\
    same_operator Ds Ds' (bsz G x) (bsz G y) /\ map (@b_rule G R) sites' = map (@b_rule G R) sites /\ map (@phys_legs G R) sites' = map (@phys_legs G R) sites /\ compressed sites sites'.
Proof. exact (@coalesce_ok). Qed.
Print Assumptions C72_coalesce_partial.
(** A chain without tensors: [begin() + 1] is past the end. *)
Theorem C72_empty_refuted : forall (G : abgroup) (R : ring) imax (W : weights) gtb lower (wt : R -> W) dsvd thr, @coalesce G R W imax gtb lower wt dsvd [] thr = Some UB.
Proof. reflexivity. Qed.
Print Assumptions C72_empty_refuted.
(** The zero operator, without blocks. *)
Theorem C72_zero_refuted : valid oz /\ nonempty oz /\ op_chain (@blegs z_group ring_Z) (@bdual z_group) [oz; oz] mvx mvx /\
  forall dsvd, coalesce 100 zgt zlow zsq dsvd [oz; oz] 0%N = Some UB.
Proof. exact oz_coalesce. Qed.
Print Assumptions C72_zero_refuted.

Example C72_ex : total_order zgt /\ (forall l, wgtb (total zsq l) 0%N = true <-> exists x, In x l /\ x <> rz) /\ (forall x, zgt x rz = true -> zgt x (zlow x) = true) /\
  (forall M, (exists m n, dsh M = [m; n]) -> thin M (pos_sided M) /\ descending zgt (entries (snd (fst (pos_sided M)))) /\ forall x, In x (entries (snd (fst (pos_sided M)))) -> zgt rz x = false) /\
  (exists Ds, Forall2 (stored 100) [ocA; ocB] Ds /\ bonds_reached [ocA; ocB] Ds 1) /\ op_chain (@blegs z_group ring_Z) (@bdual z_group) [ocA; ocB] mvx mvx /\
  (forall i B, nth_error [ocA; ocB] i = Some B -> S i < length [ocA; ocB] -> (Z.of_nat (bsz _ (right_leg B)) <= 2 ^ 63)%Z) /\
  elements2 ocA ocB = Ok (Ok [0; 0; 0; 0; 0; 8; 3; 0; 0; 2; 5; 0; 0; 0; 0; 12]%Z) /\
  show_chain (coalesce 100 zgt zlow zsq pos_sided [ocA; ocB] 0%N) =
    Some (Ok ([([1; 1; 1; 1; 2; 1; 1; 1], [[0; 0; 0; 1]; [0; 0; 1; 0]; [0; 1; 1; 1]; [0; 1; 2; 0]]); ([1; 2; 1; 1; 1; 1; 1; 1], [[0; 1; 0; 0]; [1; 0; 0; 0]; [1; 1; 0; 1]; [2; 0; 0; 1]])], elements2 ocA ocB)).
Proof.
  split; [exact zgt_order|]. split; [exact zsq_total|]. split; [exact zlow_pos|]. split; [intros M H; split; [apply pos_sided_thin; exact H|apply pos_sided_values; exact H]|].
  split; [exact oc_stored|]. split; [exact oc_fit|]. split; [|split; vm_compute; reflexivity].
  intros [|[|i]] B EB Hi; cbn in Hi; try lia. injection EB as <-. vm_compute. congruence.
Qed.
