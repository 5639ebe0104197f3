(** The matrices a block tensor is cut into for its decompositions (C91). *)
From Verif Require Import Base Quantity Ring SpecFlatMap Index SpecIndex Dense BTensor SpecBTensor BTensorEx BSvd Compact SpecCompact CompactProofs CompactThms.

(** C91. For a valid tensor of any rank from two up, the loop that fills the vector of matrices ends, never writes beyond the vector, leaves no place
    unwritten, and puts in each place the stored blocks of one group: those that share all indices but the last two and the quantities of the last
    two sections. Each group has one place. *)
Theorem C91_ranges : forall (G : abgroup) (R : ring) (T : btensor G R), valid T -> 2 <= b_rank T -> forall fuel, 2 * length (b_blocks T) + 1 <= fuel ->
  exists ks rs, tensor_ranges fuel T = Some (Ok (map Some rs)) /\ compact_tensor_count (same_range T) (reorder_last T) = length ks /\ Forall2 (blocks_of T) ks rs /\ NoDup ks /\
    forall k, In k ks <-> exists e, In e (b_blocks T) /\ group T (fst e) = k.
Proof. exact tensor_ranges_ok. Qed.
Print Assumptions C91_ranges.

(** The same for any order of the blocks and any way of telling like blocks that is an equivalence: the count made by comparing neighbours is the number of
    ranges found by comparing with the first of the range. *)
Theorem C91_loops : forall (E : Type) (same : E -> E -> bool),
  (forall x, same x x = true) -> (forall x y, same x y = true -> same y x = true) -> (forall x y z, same x y = true -> same y z = true -> same x z = true) ->
  forall L fuel, 2 * length L + 1 <= fuel ->
  exists rs, compact_ranges same fuel L = Some (Ok (map Some rs)) /\ compact_tensor_count same L = length rs /\ cut_into (fun x y => same x y = true) L rs.
Proof.
  exact (fun E same H1 H2 H3 L fuel HF => ex_intro _ _ (Logic.conj (@ranges_ok E same H1 H2 H3 L fuel HF) (Logic.conj (@count_cuts E same H1 H2 H3 L) (@all_cuts_spec E same H1 H2 H3 L)))).
Qed.
Print Assumptions C91_loops.

(** For matrices of blocks, the ranges are the ones the model of the block decompositions (C36) uses. *)
Theorem C91_matrices : forall (G : abgroup) (R : ring) (T : btensor G R) fuel rs, valid T -> b_rank T = 2 -> 2 * length (b_blocks T) + 1 <= fuel ->
  tensor_ranges fuel T = Some (Ok (map Some rs)) -> compact_dense T = rmapM (@compact_dense_single R) rs.
Proof. exact matrix_ranges. Qed.
Print Assumptions C91_matrices.

(** A tensor of rank three whose five blocks make three matrices; the sorted order is not the stored one. *)
Definition ex_batch : zt :=
  zB (q 0) 3 [2; 3; 2] [1; 1; 1; 1; 1; 1; 1] [q 0; q 0; q 0; q 1; q 0; q 0; q (-1)]
    (map (fun i => (i, dl [1; 1; 1] [7]%Z)) [[0; 0; 0]; [0; 1; 1]; [0; 2; 0]; [1; 0; 0]; [1; 2; 0]]).
Example C91_ex_valid : valid ex_batch /\ 2 <= b_rank ex_batch.
Proof. split; [ex_valid|cbn; lia]. Qed.
Example C91_ex : match tensor_ranges 11 ex_batch with Some (Ok rs) => map (option_map (map fst)) rs | _ => [] end = [Some [[0; 0; 0]; [0; 2; 0]]; Some [[1; 0; 0]; [1; 2; 0]]; Some [[0; 1; 1]]].
Proof. vm_compute. reflexivity. Qed.
Example C91_ex_matrix : valid exA /\ b_rank exA = 2 /\ match tensor_ranges 5 exA with Some (Ok rs) => map (option_map (map fst)) rs | _ => [] end = [Some [[0; 0]]; Some [[1; 1]]].
Proof. split; [apply exA_valid|]. split; vm_compute; reflexivity. Qed.
Example C91_ex_loops : compact_ranges Nat.eqb 13 [4; 4; 1; 4; 2; 2] = Some (Ok [Some [4; 4]; Some [1]; Some [4]; Some [2; 2]]) /\ compact_tensor_count Nat.eqb [4; 4; 1; 4; 2; 2] = 4.
Proof. split; reflexivity. Qed.
