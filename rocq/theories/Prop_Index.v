(** Property theorems about block indices (C09, C10, C11). *)
From Verif Require Import Base Index SpecIndex IndexProofs.

Theorem C09_left_enumeration : forall counts, (forall c, In c counts -> 0 < c) ->
  let v := visit (inc_left counts) (prod_list counts) (zeros (length counts)) in
  NoDup v /\ (forall ix, In ix v <-> in_range counts ix = true) /\
  Nat.iter (prod_list counts) (inc_left counts) (zeros (length counts)) = zeros (length counts) /\
  (forall n, 0 < n < prod_list counts -> Nat.iter n (inc_left counts) (zeros (length counts)) <> zeros (length counts)).
Proof. exact left_enum_pos. Qed.
Print Assumptions C09_left_enumeration.

Theorem C09_right_enumeration : forall counts, (forall c, In c counts -> 0 < c) ->
  let v := visit (inc_right counts) (prod_list counts) (zeros (length counts)) in
  NoDup v /\ (forall ix, In ix v <-> in_range counts ix = true) /\
  Nat.iter (prod_list counts) (inc_right counts) (zeros (length counts)) = zeros (length counts) /\
  (forall n, 0 < n < prod_list counts -> Nat.iter n (inc_right counts) (zeros (length counts)) <> zeros (length counts)).
Proof. exact right_enum_pos. Qed.
Print Assumptions C09_right_enumeration.

Example C09_ex : (forall c, In c [2; 3; 2] -> 0 < c) /\
  visit (inc_left [2; 3]) 6 (zeros 2) = [[0; 0]; [1; 0]; [0; 1]; [1; 1]; [0; 2]; [1; 2]] /\
  visit (inc_right [2; 3]) 6 (zeros 2) = [[0; 0]; [0; 1]; [0; 2]; [1; 0]; [1; 1]; [1; 2]].
Proof. split; [intros c; cbn; lia|split; reflexivity]. Qed.

Theorem C10_flatten_bijection : forall sh,
  (forall ix, in_range sh ix = true -> cpp_flatten ix sh < prod_list sh /\ cpp_unflatten (cpp_flatten ix sh) sh = ix) /\
  (forall n, n < prod_list sh -> in_range sh (cpp_unflatten n sh) = true /\ cpp_flatten (cpp_unflatten n sh) sh = n) /\
  (forall a b, in_range sh a = true -> in_range sh b = true -> (lex_lt a b <-> cpp_flatten a sh < cpp_flatten b sh)).
Proof. exact flatten_bijection. Qed.
Print Assumptions C10_flatten_bijection.

Theorem C10_reshape_index : forall sh1 sh2, prod_list sh1 = prod_list sh2 ->
  (forall ix, in_range sh1 ix = true -> in_range sh2 (reshape_block_index4 ix sh2 sh1) = true /\
     reshape_block_index4 (reshape_block_index4 ix sh2 sh1) sh1 sh2 = ix) /\
  (forall a b, in_range sh1 a = true -> in_range sh1 b = true ->
     (lex_lt a b <-> lex_lt (reshape_block_index4 a sh2 sh1) (reshape_block_index4 b sh2 sh1))).
Proof. exact reshape_index_bijection. Qed.
Print Assumptions C10_reshape_index.

Example C10_ex : prod_list [2; 6] = prod_list [3; 2; 2] /\ in_range [2; 6] [1; 3] = true /\
  cpp_flatten [1; 3] [2; 6] = 9 /\ reshape_block_index4 [1; 3] [3; 2; 2] [2; 6] = [2; 0; 1].
Proof. repeat split; reflexivity. Qed.

Theorem C11_decompose : forall sbd ss e, sum_list sbd = length ss -> length e = length sbd ->
  (forall d, d < length sbd -> nth d e 0 < sum_list (prange sbd ss d)) ->
  let (b, o) := element_index_decompose sbd ss e in
  length b = length sbd /\ length o = length sbd /\
  forall d, d < length sbd -> located (prange sbd ss d) (nth d e 0) (nth d b 0) (nth d o 0).
Proof. exact decompose_spec. Qed.
Print Assumptions C11_decompose.

Theorem C11_unique : forall sizes e b o, located sizes e b o -> find_section sizes e = (b, o).
Proof. exact find_section_unique. Qed.
Print Assumptions C11_unique.

Theorem C11_element_quantity : forall Q (dflt : Q) sbd ss cv d e,
  sum_list sbd = length ss -> length cv = length ss -> d < length sbd ->
  (e < sum_list (prange sbd ss d) ->
   exists b o, located (prange sbd ss d) e b o /\ element_conserved_qtt sbd ss cv d e = Ok (psection dflt sbd cv d b)) /\
  (sum_list (prange sbd ss d) <= e -> element_conserved_qtt sbd ss cv d e = Throw InvalidArgument).
Proof. exact element_qtt. Qed.
Print Assumptions C11_element_quantity.

Example C11_ex : sum_list [2; 3] = length [2; 0; 3; 1; 4] /\
  (forall d, d < 2 -> nth d [1; 7] 0 < sum_list (prange [2; 3] [2; 0; 3; 1; 4] d)) /\
  element_index_decompose [2; 3] [2; 0; 3; 1; 4] [1; 7] = ([0; 2], [1; 3]) /\
  element_conserved_qtt [2; 3] [2; 0; 3; 1; 4] [10; 11; 12; 13; 14] 1 3 = Ok 13.
Proof. split; [reflexivity|]. split; [|split; reflexivity]. intros [|[|d]]; cbn; lia. Qed.
