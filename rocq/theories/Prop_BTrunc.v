(** Truncation of block decompositions (C40). *)
From Verif Require Import Base Quantity QuantityProofs Ring Index SpecIndex Dense BTensor SpecBTensor BTensorThms BTensorEx SpecEdges BSvd SpecChain SpecSvd SvdDense SvdEx Truncate SpecTruncate BTrunc SpecBTrunc
  BTruncThms BTruncDense BTruncMain BTruncEx.
From Coq Require Import Permutation ZArith Lia.

(** C40. Full claim: [truncate] keeps in every block the values above one bound, at least one and at least min of them, at most
    max, and removes the matching slices and blocks of U and V.
    Below: the bound is the lowered value at the position chosen among all values in descending order; values, slices and
    sections are cut at it. Missing: blocks of U and V in sections left without value may remain, and may be out of order
    ([tidy] excludes it); the counts need values that differ from their lowered value and are all different. *)
Theorem C40_truncate_partial : forall (G : abgroup) (R : ring) (W : weights) (gtb : R -> R -> bool) lower (wt : R -> W), total_order gtb ->
  forall (U d V : btensor G R) thr mn mx, valid d -> b_rank d = 1 -> (forall e, In e (b_blocks d) -> descending gtb (entries (snd e))) ->
  carries_d d U -> carries_d d V -> 1 <= length (all_values d) -> (Z.of_nat (length (all_values d)) <= 2 ^ 63)%Z -> (1 <= mn <= mx)%Z ->
  exists vs k U' d' V', Permutation vs (all_values d) /\ descending gtb vs /\ 1 <= k <= length vs /\
    (Z.min mn (Z.of_nat (length vs)) <= Z.of_nat k <= mx)%Z /\
    (k < length vs -> exceeds (lost_after wt k) [vs] thr -> Z.of_nat k = mx) /\
    (forall j, j < k -> (mn <= Z.of_nat j)%Z -> exceeds (lost_after wt j) [vs] thr) /\
    let v := lower (nth (k - 1) vs rz) in
    truncate gtb lower wt (U, d, V) thr mn mx = Some (Ok (U', d', V')) /\
    truncated gtb d v d d' /\ valid d' /\ (forall e, In e (b_blocks d') -> ~ emptied gtb d v (section_of e)) /\
    all_values d' = filter (fun x => gtb x v) (all_values d) /\
    truncated gtb d v U U' /\ truncated gtb d v V V' /\ (tidy gtb d v U -> valid U') /\ (tidy gtb d v V -> valid V').
Proof. exact (@truncate_ok). Qed.
Print Assumptions C40_truncate_partial.
(** Number of values and dropped weight. *)
Theorem C40_count_partial : forall (G : abgroup) (R : ring) (W : weights) (gtb : R -> R -> bool) lower (wt : R -> W), total_order gtb ->
  forall (U d V : btensor G R) thr mn mx, valid d -> b_rank d = 1 -> (forall e, In e (b_blocks d) -> descending gtb (entries (snd e))) ->
  carries_d d U -> carries_d d V -> 1 <= length (all_values d) -> (Z.of_nat (length (all_values d)) <= 2 ^ 63)%Z -> (1 <= mn <= mx)%Z ->
  wgtb wz thr = false -> (forall x, In x (all_values d) -> gtb x (lower x) = true) ->
  exists v U' d' V', truncate gtb lower wt (U, d, V) thr mn mx = Some (Ok (U', d', V')) /\ all_values d' = filter (fun x => gtb x v) (all_values d) /\
    1 <= length (all_values d') /\ (Z.min mn (Z.of_nat (length (all_values d))) <= Z.of_nat (length (all_values d')))%Z /\
    (wgtb (total wt (filter (fun x => negb (gtb x v)) (all_values d))) thr = true -> (mx <= Z.of_nat (length (all_values d')))%Z) /\
    (NoDup (all_values d) -> (forall x y, In x (all_values d) -> In y (all_values d) -> gtb x y = true -> gtb y (lower x) = false) -> (Z.of_nat (length (all_values d')) <= mx)%Z).
Proof. exact (@truncate_count). Qed.
Print Assumptions C40_count_partial.
(** The product of the truncated factors is the product with the dropped values replaced by zero; the columns of sections that
    keep a value stay orthonormal. *)
Theorem C40_product_partial : forall (G : abgroup) (R : ring) (W : weights) (gtb : R -> R -> bool) lower (wt : R -> W), total_order gtb ->
  forall (U d V : btensor G R) thr mn mx, valid d -> b_rank d = 1 -> (forall e, In e (b_blocks d) -> descending gtb (entries (snd e))) ->
  carries_d d U -> carries_d d V -> 1 <= length (all_values d) -> (Z.of_nat (length (all_values d)) <= 2 ^ 63)%Z -> (1 <= mn <= mx)%Z ->
  exists x U' d' V', In x (all_values d) /\ truncate gtb lower wt (U, d, V) thr mn mx = Some (Ok (U', d', V')) /\
    let v := lower x in let l' := new_leg gtb d v (b_ss d) in
    (tidy gtb d v U -> tidy gtb d v V -> forall DU Dd DV DU' Dd' DV' i j, dense_form U DU -> dense_form d Dd -> dense_form V DV -> dense_form U' DU' -> dense_form d' Dd' -> dense_form V' DV' ->
      in_range (removelast (dsh DU)) i = true -> in_range (removelast (dsh DV)) j = true ->
      sumf R (fun c => rmul (rmul (dv DU' (i ++ [c])) (dv Dd' [c])) (rconj (dv DV' (j ++ [c])))) (seq 0 (sum_list l')) = restricted_product gtb (sum_list (b_ss d)) DU Dd DV v i j) /\
    forall X X', (X = U /\ X' = U') \/ (X = V /\ X' = V') -> tidy gtb d v X -> forall DX DX', dense_form X DX -> dense_form X' DX' -> tensor_orthonormal (removelast (dsh DX)) (sum_list (b_ss d)) DX ->
      forall b o b' o', b < length l' -> b' < length l' -> o < nth b l' 0 -> o' < nth b' l' 0 -> ~ emptied gtb d v b -> ~ emptied gtb d v b' ->
      sumf R (fun i => rmul (rconj (dv DX' (i ++ [sum_list (firstn b l') + o]))) (dv DX' (i ++ [sum_list (firstn b' l') + o']))) (idxs (removelast (dsh DX'))) = if (b =? b') && (o =? o') then ro else rz.
Proof. exact (@truncate_product). Qed.
Print Assumptions C40_product_partial.
(** The truncated decomposition of a tensor with a threshold that only drops zeros is a decomposition of the tensor. No sector
    with stored blocks may be zero. *)
Theorem C40_svd_tol_partial : forall (G : abgroup) (R : ring) (W : weights) (gtb : R -> R -> bool) lower (wt : R -> W), total_order gtb -> forall dsvd thr,
  (forall l, wgtb (total wt l) thr = true <-> exists x, In x l /\ x <> rz) -> (forall x, gtb x rz = true -> gtb x (lower x) = true) ->
  forall (T : btensor G R) D s, valid T -> nonempty T -> 0 < s < b_rank T -> b_blocks T <> [] -> dense_form T D ->
  (forall e, In e (b_blocks T) -> exists e' o, In e' (b_blocks T) /\ block_quantity s T (fst e') = block_quantity s T (fst e) /\ in_range (dsh (snd e')) o = true /\ dv (snd e') o <> rz) ->
  (forall M, sector_matrix s T D M -> thin M (dsvd M) /\ descending gtb (entries (snd (fst (dsvd M)))) /\ forall x, In x (entries (snd (fst (dsvd M)))) -> gtb rz x = false) ->
  (Z.of_nat (prod_list (map (bsz G) (skipn s (blegs T)))) <= 2 ^ 63)%Z ->
  exists U d V k, svd_tol gtb lower wt dsvd T s thr = Some (Ok (U, d, V)) /\ decomposition s T D U d V k /\
    ((forall M, sector_matrix s T D M -> isometries M (dsvd M)) -> isometric s T U V k) /\
    ((forall M, sector_matrix s T D M -> real_entries (snd (fst (dsvd M)))) -> forall Dd, dense_form d Dd -> real_entries Dd).
Proof. exact (@svd_tol_ok). Qed.
Print Assumptions C40_svd_tol_partial.

(** Blocks of a unit put out of order: the result is not a valid tensor. *)
Theorem C40_order_refuted : exists U d V U' d' V', fits U d V /\ truncate zgt zlow zsq (U, d, V) 1%N 1 10 = Some (Ok (U', d', V')) /\ map fst (b_blocks U') = [[1; 0]; [0; 1]] /\ ~ valid U'.
Proof. exact order_witness. Qed.
Print Assumptions C40_order_refuted.
(** The section without value keeps its block in U, and its size. *)
Theorem C40_blocks_refuted : exists U d V U' d' V', fits U d V /\ truncate zgt zlow zsq (U, d, V) 0%N 1 1 = Some (Ok (U', d', V')) /\
  map fst (b_blocks d') = [[0]] /\ map fst (b_blocks U') = [[0; 0]; [1; 1]] /\ legs U' = [[2; 2]; [1; 2]].
Proof. exact blocks_witness. Qed.
Print Assumptions C40_blocks_refuted.
(** Equal values: two are kept when the maximum is one. *)
Theorem C40_max_refuted : exists U d V U' d' V', fits U d V /\ truncate zgt zlow zsq (U, d, V) 0%N 1 1 = Some (Ok (U', d', V')) /\ all_values d' = [5; 5]%Z.
Proof. exact max_witness. Qed.
Print Assumptions C40_max_refuted.
(** All values zero: none is kept when the minimum is one. *)
Theorem C40_min_refuted : exists U d V U' d' V', fits U d V /\ truncate zgt zlow zsq (U, d, V) 0%N 1 10 = Some (Ok (U', d', V')) /\ all_values d' = [].
Proof. exact min_witness. Qed.
Print Assumptions C40_min_refuted.
(** The overload for eigenvalues and eigenvectors always throws. *)
Theorem C40_eigh_throws : forall (G : abgroup) (R : ring) (W : weights) gtb lower (wt : R -> W) (e S : btensor G R) thr mn mx,
  truncate_es gtb lower wt e S thr mn mx = Some (Throw TorchError).
Proof. exact (@eigh_throws). Qed.
Print Assumptions C40_eigh_throws.

Example C40_ex : total_order zgt /\ fits tU td tU /\ wgtb (w := w_N) wz 2%N = false /\ (forall x, In x (all_values td) -> zgt x (zlow x) = true) /\ NoDup (all_values td) /\
  (forall x y, In x (all_values td) -> In y (all_values td) -> zgt x y = true -> zgt y (zlow x) = false) /\
  tshow (truncate zgt zlow zsq (tU, td, tU) 2%N 1 10) = Some (Ok ([([0; 0], [1; 0; 0; 1]%Z); ([1; 1], [0; 1]%Z)], [([0], [9; 4]%Z); ([1], [5]%Z)], ([2; 2; 2; 1], [2; 1], [2; 2; 2; 1]))) /\
  tshow (truncate zgt zlow zsq (tU, td, tU) 0%N 1 2) = Some (Ok ([([0; 0], [1; 0]%Z); ([1; 1], [0; 1]%Z)], [([0], [9]%Z); ([1], [5]%Z)], ([2; 2; 1; 1], [1; 1], [2; 2; 1; 1]))).
Proof.
  split; [exact zgt_order|]. split; [exact t_fits|]. split; [reflexivity|]. split; [|split; [|split; [|split; vm_compute; reflexivity]]].
  - cbn. intros x H. repeat (destruct H as [<-|H]; [reflexivity|]). destruct H.
  - cbn. repeat (constructor; [cbn; intros H; repeat (destruct H as [H|H]; [discriminate|]); exact H|]). constructor.
  - cbn. intros x y Hx Hy. repeat (destruct Hx as [<-|Hx]; [repeat (destruct Hy as [<-|Hy]; [vm_compute; congruence|]); destruct Hy|]). destruct Hx.
Qed.
Example C40_svd_ex : (forall l, wgtb (total zsq l) 0%N = true <-> exists x, In x l /\ x <> rz) /\ (forall x, zgt x rz = true -> zgt x (zlow x) = true) /\
  (forall M, (exists m n, dsh M = [m; n]) -> thin M (pos_sided M) /\ descending zgt (entries (snd (fst (pos_sided M)))) /\ forall x, In x (entries (snd (fst (pos_sided M)))) -> zgt rz x = false) /\
  valid sg /\ nonempty sg /\ b_rank sg = 2 /\ (forall e, In e (b_blocks sg) -> exists e' o, In e' (b_blocks sg) /\ block_quantity 1 sg (fst e') = block_quantity 1 sg (fst e) /\ in_range (dsh (snd e')) o = true /\ dv (snd e') o <> rz) /\
  (Z.of_nat (prod_list (map (bsz _) (skipn 1 (blegs sg)))) <= 2 ^ 63)%Z /\
  tol_show (svd_tol zgt zlow zsq pos_sided sg 1 0%N) = Some (Ok (Ok [1; 0; 0; -1]%Z, Ok [5; 7]%Z, Ok [0; 1; 1; 0]%Z)).
Proof.
  split; [exact zsq_total|]. split; [exact zlow_pos|]. split; [intros M H; split; [apply pos_sided_thin; exact H|apply pos_sided_values; exact H]|]. split; [ex_valid|]. split; [nonempty_tac|]. split; [reflexivity|]. split; [|split].
  - intros e He. exists e, [0; 0]. split; [exact He|]. split; [reflexivity|]. cbn in He. destruct He as [<-|[<-|[]]]; (split; [reflexivity|vm_compute; discriminate]).
  - vm_compute. congruence.
  - vm_compute. reflexivity.
Qed.
