(** The generalised contraction [tensorgdot] and the variants that write into a tensor (C77). *)
From Verif Require Import Base Ring SpecIndex Dense BTensor Tensordot SpecTensordot Chain Gdot SpecGdot GdotThms GdotEx.

(** C77. Full claim (include/tensorgdot.h:21-86): [tensorgdot(C, A, B, dims1, dims2, beta, alpha)] is
    [alpha * C + beta * tensordot(A, B, dims1, dims2)]; [tensorgdot_] and [tensorgdot_out] leave that in the output tensor and
    change nothing else; what [torch::tensordot] rejects, and outputs of another shape, are rejected.

    The value of the function, with the two coefficients the other way round: [beta * C + alpha * tensordot(A, B)]. *)
Theorem C77_value_partial : forall (R : ring) (C A B : dense R) (d1 d2 : list nat) (beta alpha : R) (P : dense R),
  t_tdot A B d1 d2 = Ok P -> dsh C = dsh P ->
  exists D, tensorgdot C A B d1 d2 beta alpha = Ok D /\ combination beta alpha C P D.
Proof. exact gdot_value. Qed.
Print Assumptions C77_value_partial.
Example C77_ex : rmap values (tensorgdot ex_C ex_A ex_B [1] [0] (10 : ring_Z)%Z (1 : ring_Z)%Z) = Ok [6; 22; 35; 60]%Z /\
  rmap values (t_tdot ex_A ex_B [1] [0]) = Ok [6; 12; 15; 30]%Z.
Proof. exact ex_value. Qed.

(** The documented roles of the coefficients are not those of the code. *)
Theorem C77_documented_refuted : exists (C A B : dense ring_Z) (d1 d2 : list nat) (beta alpha : ring_Z) (P D : dense ring_Z),
  t_tdot A B d1 d2 = Ok P /\ dsh C = dsh P /\ tensorgdot C A B d1 d2 beta alpha = Ok D /\ ~ combination alpha beta C P D.
Proof.
  exact (match ex_documented with ex_intro _ P (ex_intro _ D H) =>
    ex_intro _ one_C (ex_intro _ (ones [2]) (ex_intro _ (ones [2]) (ex_intro _ [0] (ex_intro _ [0] (ex_intro _ (3 : ring_Z)%Z (ex_intro _ (5 : ring_Z)%Z (ex_intro _ P (ex_intro _ D H)))))))) end).
Qed.
Print Assumptions C77_documented_refuted.

(** What [torch::tensordot] rejects, and a shape that is not that of the contraction, are rejected; the storage is not written. *)
Theorem C77_rejects : forall (R : ring) (m : nat -> R) (out : strided) (C A B : dense R) (d1 d2 : list nat) (beta alpha : R),
  ((forall P, t_tdot A B d1 d2 = Ok P -> dsh P <> dsh C) -> tensorgdot C A B d1 d2 beta alpha = Throw TorchError) /\
  ((forall P, t_tdot A B d1 d2 = Ok P -> dsh P <> s_sh out) -> tensorgdot_in m out A B d1 d2 beta alpha = Throw TorchError).
Proof. exact (fun R m out C A B d1 d2 beta alpha => Logic.conj (@gdot_rejects R C A B d1 d2 beta alpha) (@in_rejects R m out A B d1 d2 beta alpha)). Qed.
Print Assumptions C77_rejects.
Example C77_rejects_ex : tensorgdot ex_C ex_A ex_A [1] [0] (1 : ring_Z)%Z (1 : ring_Z)%Z = Throw TorchError /\ tensorgdot ex_A ex_A ex_B [1] [0] (1 : ring_Z)%Z (1 : ring_Z)%Z = Throw TorchError.
Proof. split; reflexivity. Qed.

(** Writing into a tensor whose elements are where strides of a matrix put them: the result is there, and nothing else changes. *)
Theorem C77_inplace_partial : forall (R : ring) (m : nat -> R) (out : strided) (C A B : dense R) (d1 d2 : list nat) (beta alpha : R) (P : dense R),
  t_tdot A B d1 d2 = Ok P -> s_sh out = dsh P -> dsh C = dsh P -> separate out ->
  matrix_like out (prod_list (gather 0 (free (length (dsh A)) d1) (dsh A))) (prod_list (gather 0 (free (length (dsh B)) d2) (dsh B))) ->
  (exists m', tensorgdot_in m out A B d1 d2 beta alpha = Ok m' /\ holds m m' out beta alpha (load m out) P) /\
  (exists m', tensorgdot_out m out C A B d1 d2 beta alpha = Ok m' /\ holds m m' out beta alpha C P).
Proof. exact (fun R m out C A B d1 d2 beta alpha P H E EC S M => Logic.conj (@in_value R m out A B d1 d2 beta alpha P H E S M) (@out_value R m out C A B d1 d2 beta alpha P H EC E S M)). Qed.
Print Assumptions C77_inplace_partial.

(** Among them, for any way of cutting the dimensions: tensors contiguous in row-major order. *)
Theorem C77_contiguous : forall (v : strided) n1 n2, contiguous v -> separate v /\ matrix_like v n1 n2.
Proof. exact (fun v n1 n2 H => Logic.conj (contiguous_separate H) (contiguous_like n1 n2 H)). Qed.
Print Assumptions C77_contiguous.
Example C77_inplace_ex : contiguous ordered /\
  rmap (fun m' => values (load m' ordered)) (tensorgdot_in blank ordered (ones [2]) (ones [2; 2]) [] [] (1 : ring_Z)%Z (1 : ring_Z)%Z) = Ok [1; 1; 1; 1; 1; 1; 1; 1]%Z.
Proof. exact (Logic.conj ordered_contiguous ex_kept). Qed.

(** For all the others the call returns normally and the storage is as it was: the result is lost. *)
Theorem C77_inplace_lost : forall (R : ring) (m : nat -> R) (out : strided) (C A B : dense R) (d1 d2 : list nat) (beta alpha : R) (P : dense R),
  t_tdot A B d1 d2 = Ok P -> s_sh out = dsh P -> dsh C = dsh P ->
  ~ matrix_like out (prod_list (gather 0 (free (length (dsh A)) d1) (dsh A))) (prod_list (gather 0 (free (length (dsh B)) d2) (dsh B))) ->
  tensorgdot_in m out A B d1 d2 beta alpha = Ok m /\ tensorgdot_out m out C A B d1 d2 beta alpha = Ok m.
Proof. exact (fun R m out C A B d1 d2 beta alpha P H E EC M => Logic.conj (@in_lost R m out A B d1 d2 beta alpha P H E M) (@out_lost R m out C A B d1 d2 beta alpha P H EC E M)). Qed.
Print Assumptions C77_inplace_lost.
Example C77_inplace_lost_ex : separate flipped /\ ~ matrix_like flipped 2 4.
Proof. exact (Logic.conj flipped_separate flipped_not_like). Qed.

(** The elements of [flipped] are all in different places; the result of an outer product does not arrive there. *)
Theorem C77_inplace_refuted : exists (m : nat -> ring_Z) (out : strided) (A B : dense ring_Z) (d1 d2 : list nat) (beta alpha : ring_Z) (P : dense ring_Z) m',
  separate out /\ t_tdot A B d1 d2 = Ok P /\ s_sh out = dsh P /\ tensorgdot_in m out A B d1 d2 beta alpha = Ok m' /\
  ~ combination beta alpha (load m out) P (load m' out).
Proof.
  exact (match ex_lost with ex_intro _ P (ex_intro _ m' H) =>
    ex_intro _ blank (ex_intro _ flipped (ex_intro _ (ones [2]) (ex_intro _ (ones [2; 2]) (ex_intro _ [] (ex_intro _ [] (ex_intro _ (1 : ring_Z)%Z (ex_intro _ (1 : ring_Z)%Z (ex_intro _ P (ex_intro _ m' (Logic.conj flipped_separate H)))))))))) end).
Qed.
Print Assumptions C77_inplace_refuted.

(** [tensorgdot_out] only asks its output to have as many elements as the result: the elements go there in row-major order. *)
Theorem C77_out_shape : forall (R : ring) (m : nat -> R) (out : strided) (C A B : dense R) (d1 d2 : list nat) (beta alpha : R) (P : dense R),
  t_tdot A B d1 d2 = Ok P -> dsh C = dsh P -> prod_list (s_sh out) = prod_list (dsh P) -> contiguous out ->
  exists m', tensorgdot_out m out C A B d1 d2 beta alpha = Ok m' /\
    forall i, in_range (s_sh out) i = true -> let j := decode (dsh P) (rowmajor (s_sh out) i) in
      dv (load m' out) i = radd (rmul beta (dv C j)) (rmul alpha (dv P j)).
Proof. exact out_any_shape. Qed.
Print Assumptions C77_out_shape.
Theorem C77_out_shape_refuted : exists (m : nat -> ring_Z) (out : strided) (C A B : dense ring_Z) (d1 d2 : list nat) (beta alpha : ring_Z) (P : dense ring_Z) m',
  contiguous out /\ t_tdot A B d1 d2 = Ok P /\ dsh C = dsh P /\ s_sh out <> dsh P /\ tensorgdot_out m out C A B d1 d2 beta alpha = Ok m'.
Proof.
  exact (match ex_shape with ex_intro _ P (ex_intro _ m' H) =>
    ex_intro _ blank (ex_intro _ column (ex_intro _ ex_C (ex_intro _ ex_A (ex_intro _ ex_B (ex_intro _ [1] (ex_intro _ [0] (ex_intro _ (10 : ring_Z)%Z (ex_intro _ (1 : ring_Z)%Z
      (ex_intro _ P (ex_intro _ m' (Logic.conj column_contiguous H))))))))))) end).
Qed.
Print Assumptions C77_out_shape_refuted.

(** The variant with a number of dimensions: the last [k] of [A] with the first [k] of [B]; equal sizes only. *)
Theorem C77_count_partial : forall (R : ring) (m : nat -> R) (out : strided) (A B : dense R) (k : nat) (beta alpha : R) (P : dense R),
  k <= length (dsh A) -> k <= length (dsh B) ->
  skipn (length (dsh A) - k) (dsh A) = firstn k (dsh B) -> t_tdot A B (seq (length (dsh A) - k) k) (seq 0 k) = Ok P -> s_sh out = dsh P -> separate out ->
  matrix_like out (prod_list (firstn (length (dsh A) - k) (dsh A))) (prod_list (skipn k (dsh B))) ->
  exists m', tensorgdot_count m out A B k beta alpha = Ok m' /\ holds m m' out beta alpha (load m out) P.
Proof. exact count_holds. Qed.
Print Assumptions C77_count_partial.
Example C77_count_ex : rmap (fun m' => values (load m' (mkS [2; 2] [2; 1] 0)))
  (tensorgdot_count (fun n => Z.of_nat n : ring_Z) (mkS [2; 2] [2; 1] 0) ex_A (@mkD ring_Z [3; 2] (fun i => Z.of_nat (nth 0 i 0 + nth 1 i 0))) 1 (10 : ring_Z)%Z (1 : ring_Z)%Z) = Ok [8; 24; 37; 62]%Z.
Proof. vm_compute. reflexivity. Qed.
Theorem C77_count_rejects : forall (R : ring) (m : nat -> R) (out : strided) (A B : dense R) (k : nat) (beta alpha : R),
  k <= length (dsh A) -> k <= length (dsh B) ->
  skipn (length (dsh A) - k) (dsh A) <> firstn k (dsh B) \/ s_sh out <> firstn (length (dsh A) - k) (dsh A) ++ skipn k (dsh B) ->
  tensorgdot_count m out A B k beta alpha = Throw TorchError.
Proof. exact count_rejects. Qed.
Print Assumptions C77_count_rejects.
(** A number of dimensions that one of the tensors does not have is undefined behaviour (as long as the other one has enough). *)
Theorem C77_count_refuted : forall (R : ring) (m : nat -> R) (out : strided) (A B : dense R) (k : nat) (beta alpha : R),
  length (dsh A) < k \/ length (dsh B) < k -> 2 * k <= length (dsh A) + length (dsh B) -> tensorgdot_count m out A B k beta alpha = UB.
Proof. exact count_overrun. Qed.
Print Assumptions C77_count_refuted.
Example C77_count_refuted_ex : tensorgdot_count blank column (ones [2]) (ones [2; 2; 2]) 2 (1 : ring_Z)%Z (1 : ring_Z)%Z = UB.
Proof. exact (@count_overrun ring_Z blank column (ones [2]) (ones [2; 2; 2]) 2 (1 : ring_Z)%Z (1 : ring_Z)%Z (or_introl (le_n 2)) (le_n 4)). Qed.
