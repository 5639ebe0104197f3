(** The element type of the matrices a block tensor is cut into (C92). *)
From Verif Require Import Base Quantity QuantityProofs Ring Index SpecIndex Dense BTensor SpecBTensor BTensorEx BSvd CompactType SpecCompactType CompactTypeProofs CompactTypeMain.

(** C92, part: when the default element type of torch holds every element of every stored block, the matrices are those of the blocks themselves, or both
    fail alike. Missing: the elements of other tensors, which the default type cannot hold: see below. *)
Theorem C92_kept_partial : forall (G : abgroup) (R : ring) (store : R -> R) (T : btensor G R),
  (forall idx d i, In (idx, d) (b_blocks T) -> in_range (dsh d) i = true -> store (dv d i) = dv d i) ->
  alike_results (Forall2 alike_piece) (compact_typed store T) (compact_dense T).
Proof. exact (fun G R store T H => @typed_alike G R store T (fun e He i Hi => H (fst e) (snd e) i (eq_ind _ (fun x => In x _) He _ (surjective_pairing e)) Hi)). Qed.
Print Assumptions C92_kept_partial.

(** C92, part: under the same hypothesis every stored block has its slices in one of the matrices, and where the slices of a row and a column of sections cross, the
    matrix holds the elements of the block there, zeros if none is stored. Missing as above. *)
Theorem C92_elements_partial : forall (G : abgroup) (R : ring) (store : R -> R) (T : btensor G R) lr lc, valid T -> legs T = [lr; lc] ->
  (forall idx d i, In (idx, d) (b_blocks T) -> in_range (dsh d) i = true -> store (dv d i) = dv d i) ->
  exists ps, compact_typed store T = Ok ps /\
    (forall i j d, In ([i; j], d) (b_blocks T) -> exists M rows cols o o', In (M, rows, cols) ps /\ In (i, (o, nth i lr 0)) rows /\ In (j, (o', nth j lc 0)) cols) /\
    forall M rows cols i o s j o' s' x y, In (M, rows, cols) ps -> In (i, (o, s)) rows -> In (j, (o', s')) cols -> x < s -> y < s' -> dv M [o + x; o' + y] = bentry T [i; j] [x; y].
Proof. exact (fun G R => @typed_elements G R). Qed.
Print Assumptions C92_elements_partial.

(** "The matrices hold the elements of the blocks" is false of a complex tensor when the default type is real: a valid tensor whose only block is the imaginary unit is
    cut into one matrix, of zeros. *)
Theorem C92_complex_refuted : exists T : btensor z_group ring_Zi, valid T /\
  exists M rows cols, compact_typed (fun x : ring_Zi => (fst x, 0%Z) : ring_Zi) T = Ok [(M, rows, cols)] /\ dsh M = [1; 1] /\ dv M [0; 0] = rz /\ bentry T [0; 0] [0; 0] = ((0, 1)%Z : ring_Zi).
Proof.
  exists ex_imag. split; [ex_valid|]. eexists _, _, _. split; [reflexivity|]. repeat split.
Qed.
Print Assumptions C92_complex_refuted.

(** The hypotheses of the two partial theorems: a complex tensor with real elements and a real default type. *)
Definition ex_real : btensor z_group ring_Zi :=
  @mkB z_group ring_Zi (q 0) 2 [2; 1] [1; 1; 1] [q 0; q 0; q 0] [([0; 0], @mkD ring_Zi [1; 1] (fun _ => (2, 0)%Z)); ([1; 0], @mkD ring_Zi [1; 1] (fun _ => (3, 0)%Z))].
Example C92_ex : valid ex_real /\ legs ex_real = [[1; 1]; [1]] /\ (forall idx d i, In (idx, d) (b_blocks ex_real) -> in_range (dsh d) i = true -> real_part (dv d i) = dv d i) /\
  match compact_typed real_part ex_real with Ok [(M, rows, cols)] => dsh M = [2; 1] /\ dv M [0; 0] = ((2, 0)%Z : ring_Zi) /\ dv M [1; 0] = ((3, 0)%Z : ring_Zi) | _ => False end.
Proof. split; [ex_valid|]. split; [reflexivity|]. split; [intros idx d i [E|[E|[]]] _; injection E as <- <-; reflexivity|]. cbv. repeat split. Qed.
