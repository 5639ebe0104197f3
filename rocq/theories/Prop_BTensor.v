(** Property theorems about block tensors: validity, access, dense conversion, factories, metadata edits, comparisons
    (C12-C16, C21, C27-C33, C53). *)
From Verif Require Import Base Quantity QuantityProofs FlatMap SpecFlatMap Ring Index SpecIndex Dense BTensor SpecBTensor
  BTensorThms BTensorThms2 BTensorEx SelRule SelRuleProofs.

(** C12. Full claim: [check_tensor T = Ok true] exactly for well-formed tensors and a rejection otherwise. Proved when the
    list of conserved quantities has one entry per section; false in general (the length of that list is not checked, and
    an out-of-range index is looked up before being rejected). *)
Theorem C12_check_partial : forall G R (T : btensor G R), length (b_cv T) = sum_list (b_sbd T) ->
  check_tensor T = Ok true <->
  length (b_sbd T) = b_rank T /\ sum_list (b_sbd T) = length (b_ss T) /\ blocks_ok T.
Proof. exact check_tensor_true. Qed.
Print Assumptions C12_check_partial.
Theorem C12_decides_partial : forall G R (T : btensor G R), meta_ok T ->
  (forall idx t, In (idx, t) (b_blocks T) -> in_range (b_sbd T) idx = true) ->
  check_tensor T = Ok true /\ blocks_ok T \/ check_tensor T = Ok false /\ ~ blocks_ok T.
Proof. exact check_tensor_decides. Qed.
Print Assumptions C12_decides_partial.
Theorem C12_constructor_partial : forall G R (T T' : btensor G R), length (b_cv T) = sum_list (b_sbd T) ->
  sorted lexb (b_blocks T) -> make T = Ok T' -> T' = T /\ valid T.
Proof. exact make_valid. Qed.
Print Assumptions C12_constructor_partial.
Theorem C12_constructor_accepts : forall G R (T : btensor G R), valid T -> make T = Ok T.
Proof. exact valid_make. Qed.
Print Assumptions C12_constructor_accepts.
Theorem C12_check_refuted :
  (exists T : zt, check_tensor T = Ok true /\ ~ meta_ok T) /\ (exists T : zt, meta_ok T /\ check_tensor T = UB).
Proof. exact check_refuted. Qed.
Print Assumptions C12_check_refuted.
Example C12_ex : length (b_cv exA) = sum_list (b_sbd exA) /\ check_tensor exA = Ok true /\
  check_tensor (with_blocks exA [([0; 1], dl [1; 1] [3]%Z)]) = Ok false /\
  check_tensor (with_blocks exA [([0; 0], dl [2; 1] [3; 4]%Z)]) = Ok false.
Proof. repeat split. Qed.

(** C13. Full claim: for every index list, [block] returns an existing block, or adds an allowed zero block, or throws, and
    the tensor stays valid. Proved for in-range indices as to which block is touched; the block added for an absent index
    is an undefined tensor, so the tensor is then not valid, and an out-of-range index can be accepted. *)
Theorem C13_block_partial : forall G R (T : btensor G R) idx, valid T -> in_range (b_sbd T) idx = true ->
  (allowed T idx -> exists T' p, block T idx = Ok (T', p) /\ same_meta T T' /\ sorted lexb (b_blocks T') /\
     nth_error (b_blocks T') p = Some (idx, match assoc leqb idx (b_blocks T) with Some t => t | None => undefined_tensor R end) /\
     (forall k, k <> idx -> assoc leqb k (b_blocks T') = assoc leqb k (b_blocks T)) /\
     (assoc leqb idx (b_blocks T) <> None -> b_blocks T' = b_blocks T /\ valid T')) /\
  (~ allowed T idx -> block T idx = Throw InvalidArgument).
Proof. exact block_get_spec. Qed.
Print Assumptions C13_block_partial.
(** Assigning a block of the right shape through the returned reference keeps the tensor valid. *)
Theorem C13_assign : forall G R (T : btensor G R) idx t, valid T -> allowed T idx -> dsh t = pick 0 (legs T) idx ->
  exists T', block_assign T idx t = Ok T' /\ same_meta T T' /\ valid T' /\
    forall k, assoc leqb k (b_blocks T') = if leqb idx k then Some t else assoc leqb k (b_blocks T).
Proof. exact block_assign_spec. Qed.
Print Assumptions C13_assign.
Theorem C13_wrong_length : forall G R (T : btensor G R) idx, length idx <> length (b_sbd T) -> block T idx = UB.
Proof. exact block_wrong_length. Qed.
Print Assumptions C13_wrong_length.
Theorem C13_absent_refuted : forall G R (T : btensor G R) idx T' p, valid T -> allowed T idx ->
  assoc leqb idx (b_blocks T) = None -> pick 0 (legs T) idx <> [0] -> block T idx = Ok (T', p) -> ~ valid T'.
Proof. exact block_absent_invalid. Qed.
Print Assumptions C13_absent_refuted.
Theorem C13_block_refuted :
  (exists (T T' : zt) idx p, valid T /\ block T idx = Ok (T', p) /\ in_range (b_sbd T) idx = false /\ ~ valid T') /\
  (exists (T T' : zt) idx p, valid T /\ allowed T idx /\ block T idx = Ok (T', p) /\ ~ valid T').
Proof. exact block_refuted. Qed.
Print Assumptions C13_block_refuted.
Example C13_ex : valid exA /\ in_range (b_sbd exA) [1; 1] = true /\ allowed exA [1; 1] /\ ~ allowed exA [0; 1] /\
  dsh (dl [2; 1] [9; 9]%Z) = pick 0 (legs exA) [1; 1].
Proof.
  split; [exact exA_valid|]. split; [reflexivity|]. split; [split; [reflexivity|apply qeqb_spec; reflexivity]|].
  split; [|reflexivity]. intros [_ H]. apply qeqb_spec in H. discriminate.
Qed.

Theorem C14_to_dense : forall G R (T : btensor G R), valid T -> exists D, to_dense T = Ok D /\ dense_form T D /\
  forall i, in_range (dsh D) i = true -> exists b o, in_range (b_sbd T) b = true /\ in_range (pick 0 (legs T) b) o = true /\
    place (legs T) b o = i.
Proof. exact to_dense_total. Qed.
Print Assumptions C14_to_dense.
Example C14_ex : valid exA /\ rmap elems (to_dense exA) = Ok [3; 4; 0; 0; 0; 5; 0; 0; 6]%Z.
Proof. split; [exact exA_valid|exact exA_dense]. Qed.

(** C15. Full claim: for every shape. Proved for shapes without empty dimensions (no sections); false otherwise. The test
    "norm exceeds cutoff" is the parameter [signif]. *)
Theorem C15_from_basic_partial : forall G R (T : btensor G R) values signif, meta_ok T ->
  (forall n, In n (b_sbd T) -> 0 < n) -> dsh values = map sum_list (legs T) ->
  exists out, from_basic T values signif = Ok out /\ same_meta T out /\ valid out /\
  forall b o, in_range (b_sbd T) b = true -> in_range (pick 0 (legs T) b) o = true ->
    (allowed T b /\ signif (d_slice (origin (legs T) b) (pick 0 (legs T) b) values) = true ->
       bentry out b o = dv values (place (legs T) b o)) /\
    (~ allowed T b \/ signif (d_slice (origin (legs T) b) (pick 0 (legs T) b) values) = false -> bentry out b o = rz).
Proof. exact from_basic_exact. Qed.
Print Assumptions C15_from_basic_partial.
Theorem C15_round_trip_partial : forall G R (T : btensor G R) D signif, valid T -> (forall n, In n (b_sbd T) -> 0 < n) ->
  dense_form T D -> cutoff0 signif ->
  exists out D', from_basic (sparse_zeros_like T) D signif = Ok out /\ same_meta T out /\ valid out /\ to_dense out = Ok D' /\ deq D' D.
Proof. exact round_trip_pos. Qed.
Print Assumptions C15_round_trip_partial.
Theorem C15_refuted : exists (T : zt) D, valid T /\ dense_form T D /\ from_basic T D (fun _ => true) = Throw InvalidArgument.
Proof. exact from_basic_refuted. Qed.
Print Assumptions C15_refuted.
Example C15_ex : valid exA /\ (forall n, In n (b_sbd exA) -> 0 < n) /\ cutoff0 (fun _ : dense ring_Z => true) /\
  (do D <- to_dense exA ; do out <- from_basic exA D (fun _ => true) ; rmap elems (to_dense out)) = Ok [3; 4; 0; 0; 0; 5; 0; 0; 6]%Z.
Proof. split; [exact exA_valid|]. split; [cbn; intros; lia|]. split; [intros d; discriminate|vm_compute; reflexivity]. Qed.

(** C16. Full claim: for every shape. Proved for shapes without empty dimensions; false otherwise. *)
Theorem C16_factory_partial : forall G R (T : btensor G R) (f : list nat -> list nat -> dense R), meta_ok T ->
  (forall n, In n (b_sbd T) -> 0 < n) -> (forall k sh, dsh (f k sh) = sh) ->
  exists out, factory_wrap (sparse_zeros_like T) f = Ok out /\ same_meta T out /\ valid out /\
  (forall k t, assoc leqb k (b_blocks out) = Some t <-> allowed T k /\ t = f k (pick 0 (legs T) k)).
Proof. exact full_exact. Qed.
Print Assumptions C16_factory_partial.
Theorem C16_eye : forall G R (T : btensor G R), meta_ok T -> b_rank T = 2 ->
  exists out, eye_like T = Ok out /\ same_meta T out /\ valid out /\
  forall k t, assoc leqb k (b_blocks out) = Some t <->
    exists i, k = [i; i] /\ allowed T k /\ t = d_eye (nth 0 (pick 0 (legs T) k) 0) (nth 1 (pick 0 (legs T) k) 0).
Proof. exact eye_spec. Qed.
Print Assumptions C16_eye.
Theorem C16_refuted : exists T out : zt, valid T /\ full_like T 1%Z = Ok out /\ ~ valid out.
Proof. exact factory_refuted. Qed.
Print Assumptions C16_refuted.
Example C16_ex : meta_ok exA /\ (forall n, In n (b_sbd exA) -> 0 < n) /\ b_rank exA = 2 /\
  (do o <- full_like exA (7%Z : ring_Z) ; rmap elems (to_dense o)) = Ok [7; 7; 0; 0; 0; 7; 0; 0; 7]%Z.
Proof. split; [repeat split|]. split; [cbn; intros; lia|]. split; [reflexivity|vm_compute; reflexivity]. Qed.

(** C21. Full claim: accepted exactly when rank, sections, sizes, quantities and rule agree. The number of sections per
    dimension is not compared, so it is proved when those agree and false otherwise. *)
Theorem C21_add_check_partial : forall G R (a b : btensor G R), meta_ok a -> meta_ok b -> b_sbd a = b_sbd b ->
  (add_tensor_check a b = Ok tt <-> same_meta a b).
Proof. exact add_check_same. Qed.
Print Assumptions C21_add_check_partial.
Theorem C21_add_check_refuted : exists a b : zt, valid a /\ valid b /\ add_tensor_check a b = Ok tt /\
  b_rank a <> b_rank b /\ sizes a <> sizes b.
Proof. exact add_check_refuted. Qed.
Print Assumptions C21_add_check_refuted.
Example C21_ex : meta_ok exA /\ meta_ok exB /\ b_sbd exA = b_sbd exB /\ add_tensor_check exA exB = Ok tt /\
  add_tensor_check exA (with_rule exA (q 1)) <> Ok tt.
Proof. split; [repeat split|]. split; [repeat split|]. split; [reflexivity|]. split; [reflexivity|discriminate]. Qed.

Theorem C27_inverse_valid : forall G R (T : btensor G R), valid T -> valid (inverse_cvals T).
Proof. exact inverse_valid. Qed.
Print Assumptions C27_inverse_valid.
Theorem C27_inverse_involution : forall G R (T : btensor G R), inverse_cvals (inverse_cvals T) = T.
Proof. exact inverse_involution. Qed.
Print Assumptions C27_inverse_involution.
Theorem C27_inverse_dense : forall G R (T : btensor G R) D, dense_form T D <-> dense_form (inverse_cvals T) D.
Proof. exact inverse_dense. Qed.
Print Assumptions C27_inverse_dense.
Theorem C27_conj : forall G R (T : btensor G R) D, valid T -> dense_form T D ->
  valid (conj T) /\ dense_form (conj T) (d_map rconj D) /\ dense_form (conj (conj T)) D /\ same_meta T (conj (conj T)).
Proof. exact conj_spec. Qed.
Print Assumptions C27_conj.
Example C27_ex : valid exA /\ (exists D, dense_form exA D) /\ map (fun x : z_group => proj1_sig x) (b_cv (inverse_cvals exA)) = [0; -1; 0; 1]%Z /\
  check_tensor (conj exA) = Ok true.
Proof.
  split; [exact exA_valid|]. split; [destruct (C14_to_dense _ _ exA exA_valid) as [D [_ [H _]]]; eauto|].
  split; vm_compute; reflexivity.
Qed.

(** C28. Full claim: [cval_shift_] keeps a valid tensor valid for every shift. The rule receives the inverse shift where
    the blocks' quantities receive the shift, so the result is valid exactly for shifts of order two. *)
Theorem C28_shift_partial : forall G R (T : btensor G R) shift dim T', valid T -> b_blocks T <> [] ->
  cval_shift_ T shift dim = Ok T' -> b_blocks T' = b_blocks T /\ (valid T' <-> qop G shift shift = qe G).
Proof. exact cval_shift_valid_iff. Qed.
Print Assumptions C28_shift_partial.
Theorem C28_shift_refuted : exists T T' : zt, valid T /\ cval_shift_ T (q 1) 0 = Ok T' /\ ~ valid T'.
Proof. exact cval_shift_refuted. Qed.
Print Assumptions C28_shift_refuted.
Example C28_ex : valid exA /\ b_blocks exA <> [] /\ is_ok (cval_shift_ exA (q 1) 1) = true /\ cval_shift_ exA (q 1) 2 = Throw InvalidArgument.
Proof. split; [exact exA_valid|]. split; [discriminate|]. split; reflexivity. Qed.

Theorem C29_rule_edits : forall G R (T : btensor G R) q0,
  (b_blocks T = [] ->
     (exists T', set_selection_rule_ T q0 = Ok T' /\ b_rule T' = q0 /\ same_meta (with_rule T q0) T' /\ b_blocks T' = [] /\ (valid T -> valid T')) /\
     (exists T', shift_selection_rule_ T q0 = Ok T' /\ b_rule T' = qop G (b_rule T) q0 /\
        same_meta (with_rule T (qop G (b_rule T) q0)) T' /\ b_blocks T' = [] /\ (valid T -> valid T'))) /\
  (b_blocks T <> [] -> set_selection_rule_ T q0 = Throw LogicError /\ shift_selection_rule_ T q0 = Throw LogicError).
Proof. exact rule_edits. Qed.
Print Assumptions C29_rule_edits.
Example C29_ex : b_blocks (sparse_zeros_like exA) = [] /\ b_blocks exA <> [] /\ set_selection_rule_ exA (q 1) = Throw LogicError.
Proof. split; [reflexivity|]. split; [discriminate|reflexivity]. Qed.

(** C30. Full claim: [allclose] is closeness of all dense elements, for all tolerances. A block missing from the first
    tensor is compared with the arguments swapped, so it is proved for tests that do not distinguish [close 0 x] from
    [close x 0] (relative tolerance 0) and false in general. *)
Theorem C30_allclose_partial : forall G R close (a b : btensor G R) Da Db, valid a -> valid b -> same_meta a b ->
  dense_form a Da -> dense_form b Db -> close rz rz = true -> (forall x, close rz x = close x rz) ->
  allclose close a b = true <-> forall i, in_range (dsh Da) i = true -> close (dv Da i) (dv Db i) = true.
Proof. exact allclose_dense. Qed.
Print Assumptions C30_allclose_partial.
Theorem C30_allclose_refuted : exists (a b : zt) Da Db, valid a /\ valid b /\ same_meta a b /\ dense_form a Da /\ dense_form b Db /\
  allclose close_rel a b = false /\ forall i, in_range (dsh Da) i = true -> close_rel (dv Da i) (dv Db i) = true.
Proof. exact allclose_refuted. Qed.
Print Assumptions C30_allclose_refuted.
(** |x - y| <= 4 *)
Definition close4 (x y : ring_Z) : bool := (Z.abs (x - y) <=? 4)%Z.
Example C30_ex : valid exA /\ valid exB /\ same_meta exA exB /\ close4 rz rz = true /\
  allclose close4 exA exB = true /\ allclose close4 exB exA = true /\
  allclose (fun x y : ring_Z => Z.abs (x - y) <=? 3)%Z exA exB = false.
Proof. split; [exact exA_valid|]. split; [exact exB_valid|]. split; [repeat split|]. repeat split. Qed.
Example C30_ex_sym : forall x, close4 rz x = close4 x rz.
Proof. intros x. unfold close4. cbn. rewrite <- Z.abs_opp. f_equal. f_equal. lia. Qed.

(** C31. Full claim: true exactly when some stored element is true. The loop combines blocks with "and" and stops at the
    first true value: the result is that of the first block. *)
Theorem C31_any_exact : forall G R truth (T : btensor G R),
  any truth T = match b_blocks T with [] => None | (_, t) :: _ => Some (d_any truth t) end.
Proof. exact any_first. Qed.
Print Assumptions C31_any_exact.
Theorem C31_any_partial : forall G (R : ring) (truth : R -> bool) (T : btensor G R) k t, valid T -> b_blocks T = [(k, t)] ->
  any truth T = Some true <-> exists b o, in_range (b_sbd T) b = true /\ in_range (pick 0 (legs T) b) o = true /\
     assoc leqb b (b_blocks T) <> None /\ truth (bentry T b o) = true.
Proof. exact any_single. Qed.
Print Assumptions C31_any_partial.
Theorem C31_any_refuted : exists (T : zt), valid T /\ any (fun z : ring_Z => negb (z =? 0)%Z) T = Some false /\
  exists b o, in_range (b_sbd T) b = true /\ in_range (pick 0 (legs T) b) o = true /\ bentry T b o = 1%Z.
Proof. exact any_refuted. Qed.
Print Assumptions C31_any_refuted.
Example C31_ex : valid exB /\ b_blocks exB = [([1; 1], dl [2; 1] [7; 8]%Z)] /\ any (fun z : ring_Z => (z =? 8)%Z) exB = Some true.
Proof. split; [exact exB_valid|]. split; reflexivity. Qed.

(** C32. The dense tensor has the sizes of the shape tensor; "magnitude above the cutoff" is the parameter [big]. *)
Theorem C32_find_rule : forall G R big (T : btensor G R) (t : dense R), meta_ok T -> b_rank T = 2 ->
  dsh t = map sum_list (legs T) ->
  (exists r, find_selection_rule big t T = Ok r /\
     (forall b o, in_range (b_sbd T) b = true -> in_range (pick 0 (legs T) b) o = true ->
        big (dv t (place (legs T) b o)) = true -> qprod G (pick (qe G) (qlegs T) b) = r) /\
     ((forall i, in_range (dsh t) i = true -> big (dv t i) = false) -> r = qe G))
  \/ (find_selection_rule big t T = Throw LogicError /\
      exists b o b' o', in_range (b_sbd T) b = true /\ in_range (pick 0 (legs T) b) o = true /\
        in_range (b_sbd T) b' = true /\ in_range (pick 0 (legs T) b') o' = true /\
        big (dv t (place (legs T) b o)) = true /\ big (dv t (place (legs T) b' o')) = true /\
        qprod G (pick (qe G) (qlegs T) b) <> qprod G (pick (qe G) (qlegs T) b')).
Proof. exact find_rule_spec. Qed.
Print Assumptions C32_find_rule.
Example C32_ex :
  let big := fun z : ring_Z => (1 <? Z.abs z)%Z in
  rmap (fun x : z_group => proj1_sig x) (find_selection_rule big (dl [3; 3] [0; 0; 9; 0; 1; 0; 0; 0; 0]%Z) exA) = Ok (-1)%Z /\
  find_selection_rule big (dl [3; 3] [0; 0; 9; 0; 2; 0; 0; 0; 0]%Z) exA = Throw LogicError.
Proof. split; vm_compute; reflexivity. Qed.

(** C33. Full claim: the number reserved is the number of allowed blocks, capped. Exact without an effective cap on
    [compute_max_size] and for [tensor_list_size_guess] (cap 50); with a cap, [compute_max_size] counts only among the
    first [max] indices. *)
Theorem C33_max_size_partial : forall G R (T : btensor G R) max l, meta_ok T -> 0 < b_rank T -> (forall n, In n (b_sbd T) -> 0 < n) ->
  prod_list (b_sbd T) <= max -> allowed_list T l -> compute_max_size T max = Ok (length l).
Proof. exact max_size_count. Qed.
Print Assumptions C33_max_size_partial.
Theorem C33_size_guess : forall G R (T : btensor G R) l, meta_ok T -> (forall n, In n (b_sbd T) -> 0 < n) -> allowed_list T l ->
  tensor_list_size_guess T = Ok (Nat.min 50 (length l)).
Proof. exact guess_count. Qed.
Print Assumptions C33_size_guess.
Theorem C33_refuted : exists (T : zt) l, valid T /\ allowed_list T l /\ compute_max_size T 1 <> Ok (Nat.min (length l) 1).
Proof. exact max_size_refuted. Qed.
Print Assumptions C33_refuted.
Example C33_ex : meta_ok exA /\ 0 < b_rank exA /\ (forall n, In n (b_sbd exA) -> 0 < n) /\ prod_list (b_sbd exA) <= 4 /\
  (exists l, allowed_list exA l) /\ compute_max_size exA 4 = Ok 2 /\ tensor_list_size_guess exA = Ok 2.
Proof.
  split; [repeat split|]. split; [cbn; lia|]. split; [cbn; intros; lia|]. split; [cbn; lia|].
  split; [eexists; apply allowed_list_filter|]. split; reflexivity.
Qed.

(** C53. Full claim: [sum] of a valid tensor is a valid rank-0 tensor holding the sum. The value is always right; the
    result keeps the selection rule, so it is valid exactly when the rule is neutral. *)
Theorem C53_sum_partial : forall G R (T : btensor G R) D, valid T -> dense_form T D ->
  item (bt_sum T) = Ok (d_sum D) /\ (valid (bt_sum T) <-> b_rule T = qe G).
Proof. exact sum_spec. Qed.
Print Assumptions C53_sum_partial.
Theorem C53_sum_refuted : exists T : zt, valid T /\ ~ valid (bt_sum T).
Proof. exact sum_refuted. Qed.
Print Assumptions C53_sum_refuted.
Example C53_ex : valid exA /\ (exists D, dense_form exA D) /\ item (bt_sum exA) = Ok 18%Z.
Proof.
  split; [exact exA_valid|]. split; [destruct (C14_to_dense _ _ exA exA_valid) as [D [_ [H _]]]; eauto|reflexivity].
Qed.
