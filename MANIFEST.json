{
 "claims": [
  {
   "property": "C01",
   "status": "partial",
   "theorems": [
    "C01_cyclic_group_partial",
    "C01_cyclic_group_refuted"
   ],
   "note": "Holds exactly for N<=32768; for every N in 32769..65535 the 16-bit intermediate sum wraps and associativity fails (refuted)."
  },
  {
   "property": "C02",
   "status": "partial",
   "theorems": [
    "C02_constructor_residue_partial",
    "C02_constructor_residue_refuted"
   ],
   "note": "Holds except exactly at v=-kN with k>=2, where the stored value is N, not a legal value (refuted)."
  },
  {
   "property": "C03",
   "status": "proved",
   "theorems": [
    "C03_integer_quantity"
   ],
   "note": ""
  },
  {
   "property": "C04",
   "status": "proved",
   "theorems": [
    "C04_composite",
    "C04_composite_cons"
   ],
   "note": ""
  },
  {
   "property": "C05",
   "status": "proved",
   "theorems": [
    "C05_history"
   ],
   "note": "History alphabet: insert, emplace, operator[] read/assign, at, contains, find+erase(iterator), clear, merge."
  },
  {
   "property": "C06",
   "status": "partial",
   "theorems": [
    "C06_erase_key_partial",
    "C06_erase_key_refuted"
   ],
   "note": "True for present keys; false for every absent key (another entry is erased, or end() is dereferenced)."
  },
  {
   "property": "C07",
   "status": "partial",
   "theorems": [
    "C07_hint_partial",
    "C07_hint_refuted"
   ],
   "note": "True for hints next to the insertion point, not below the key, or end(); false for every other hint."
  },
  {
   "property": "C08",
   "status": "partial",
   "theorems": [
    "C08_merge_partial",
    "C08_merge_exact",
    "C08_merge_refuted",
    "C08_merge_rvalue_exact"
   ],
   "note": "Exact result proved for all inputs; the claim fails because nocollision is also applied to destination keys below all source keys."
  },
  {
   "property": "C09",
   "status": "proved",
   "theorems": [
    "C09_left_enumeration",
    "C09_right_enumeration"
   ],
   "note": ""
  },
  {
   "property": "C10",
   "status": "proved",
   "theorems": [
    "C10_flatten_bijection",
    "C10_reshape_index"
   ],
   "note": ""
  },
  {
   "property": "C11",
   "status": "proved",
   "theorems": [
    "C11_decompose",
    "C11_unique",
    "C11_element_quantity"
   ],
   "note": ""
  },
  {
   "property": "C12",
   "status": "partial",
   "theorems": [
    "C12_check_partial",
    "C12_decides_partial",
    "C12_constructor_partial",
    "C12_constructor_accepts",
    "C12_check_refuted"
   ],
   "note": "Exact when the quantity list has one entry per section; refuted in general: that length is never checked and an out-of-range index is dereferenced (UB) rather than rejected."
  },
  {
   "property": "C13",
   "status": "partial",
   "theorems": [
    "C13_block_partial",
    "C13_assign",
    "C13_wrong_length",
    "C13_absent_refuted",
    "C13_block_refuted"
   ],
   "note": "In-range indices: exact. Refuted: an absent allowed block is stored as an undefined tensor (invalid until assigned), an out-of-range index can be accepted, a wrong-length index is UB."
  },
  {
   "property": "C14",
   "status": "proved",
   "theorems": [
    "C14_to_dense"
   ],
   "note": ""
  },
  {
   "property": "C15",
   "status": "partial",
   "theorems": [
    "C15_from_basic_partial",
    "C15_round_trip_partial",
    "C15_refuted"
   ],
   "note": "All shapes whose dimensions have at least one section; refuted for shapes with an empty dimension. The norm-above-cutoff test is a parameter."
  },
  {
   "property": "C16",
   "status": "partial",
   "theorems": [
    "C16_factory_partial",
    "C16_eye",
    "C16_refuted"
   ],
   "note": "All shapes whose dimensions have at least one section; refuted for shapes with an empty dimension (an out-of-range block is stored)."
  },
  {
   "property": "C17",
   "status": "proved",
   "theorems": [
    "C17_permute",
    "C17_permute_inverse",
    "C17_transpose"
   ],
   "note": ""
  },
  {
   "property": "C18",
   "status": "partial",
   "theorems": [
    "C18_tensordot_partial",
    "C18_scalar_refuted",
    "C18_scalar_loops_refuted"
   ],
   "note": "Proved in full for operands of rank at least one; refuted for a rank zero operand with a block (endless loop)."
  },
  {
   "property": "C19",
   "status": "partial",
   "theorems": [
    "C19_add",
    "C19_add_rvalue_refuted"
   ],
   "note": "Proved for add(const&), add_ and the values of add(&&); add(&&) with no block at all dereferences begin() of an empty map (refuted)."
  },
  {
   "property": "C20",
   "status": "partial",
   "theorems": [
    "C20_axpy_partial",
    "C20_axpy_exact_partial",
    "C20_sub_refuted",
    "C20_sub_empty_refuted"
   ],
   "note": "Exact result for every pair of sparsity patterns; the claim is false when a block of a precedes every block of b."
  },
  {
   "property": "C21",
   "status": "partial",
   "theorems": [
    "C21_add_check_partial",
    "C21_add_check_refuted"
   ],
   "note": "True when the section counts agree; refuted in general because only packed lists are compared."
  },
  {
   "property": "C22",
   "status": "partial",
   "theorems": [
    "C22_mul_partial",
    "C22_mul_inplace_partial",
    "C22_mul_refuted",
    "C22_mul_size_refuted",
    "C22_mul_inplace_refuted"
   ],
   "note": "Proved for all compatible pairs unless a dimension of one section of size other than one (or of no section) of the tensor of larger rank meets size one in the other one: there the product throws, or gets the wrong size when no block is stored (refuted). mul_ equals mul when this has at least the rank of other; otherwise it reads out of bounds (refuted)."
  },
  {
   "property": "C23",
   "status": "partial",
   "theorems": [
    "C23_reshape_partial",
    "C23_rank_zero_refuted"
   ],
   "note": "Proved for rank at least one and no dimension without sections (every grouping into non-empty groups); refuted for rank zero (iterator before begin)."
  },
  {
   "property": "C24",
   "status": "partial",
   "theorems": [
    "C24_view_partial",
    "C24_view_keep_partial",
    "C24_trailing_refuted",
    "C24_keep_trailing_refuted"
   ],
   "note": "With and without keeping the rank. Proved when every dimension fixed after the last kept one has a single section; otherwise blocks of other positions leak in (refuted)."
  },
  {
   "property": "C25",
   "status": "partial",
   "theorems": [
    "C25_shape_partial",
    "C25_rejects",
    "C25_no_section_refuted"
   ],
   "note": "Proved for tensors without a dimension of zero sections; such a dimension can give an out-of-bounds read (refuted)."
  },
  {
   "property": "C26",
   "status": "partial",
   "theorems": [
    "C26_assign_partial",
    "C26_trailing_refuted",
    "C26_zero_refuted"
   ],
   "note": "Proved when the last dimension is kept and the value stores every block the slice stores; a trailing fixed index is an out-of-bounds read and missing blocks of the value leave old entries (both refuted)."
  },
  {
   "property": "C27",
   "status": "proved",
   "theorems": [
    "C27_inverse_valid",
    "C27_inverse_involution",
    "C27_inverse_dense",
    "C27_conj"
   ],
   "note": ""
  },
  {
   "property": "C28",
   "status": "partial",
   "theorems": [
    "C28_shift_partial",
    "C28_shift_refuted"
   ],
   "note": "Exact characterisation: with blocks stored, the result is valid iff shift*shift is neutral; refuted in general."
  },
  {
   "property": "C29",
   "status": "proved",
   "theorems": [
    "C29_rule_edits"
   ],
   "note": ""
  },
  {
   "property": "C30",
   "status": "partial",
   "theorems": [
    "C30_allclose_partial",
    "C30_allclose_refuted"
   ],
   "note": "True for zero relative tolerance; refuted with a relative tolerance (missing blocks of the first tensor are compared with swapped arguments)."
  },
  {
   "property": "C31",
   "status": "partial",
   "theorems": [
    "C31_any_exact",
    "C31_any_partial",
    "C31_any_refuted"
   ],
   "note": "The result is exactly the disjunction over the first block; claim true for one stored block, refuted for two."
  },
  {
   "property": "C32",
   "status": "proved",
   "theorems": [
    "C32_find_rule"
   ],
   "note": "Dense tensor of the sizes of the shape tensor; |x|>cutoff is a parameter."
  },
  {
   "property": "C33",
   "status": "partial",
   "theorems": [
    "C33_max_size_partial",
    "C33_size_guess",
    "C33_refuted"
   ],
   "note": "Exact for an ineffective cap and for tensor_list_size_guess (cap 50); refuted for compute_max_size with a small cap."
  },
  {
   "property": "C34",
   "status": "partial",
   "theorems": [
    "C34_bmm_partial",
    "C34_incompatible_partial",
    "C34_empty_refuted"
   ],
   "note": "Any rank, group and ring, any stored blocks; no empty dimension. Compatible tensors of rank three or more with a dimension that only has sections of size zero are refused (refuted)."
  },
  {
   "property": "C35",
   "status": "partial",
   "theorems": [
    "C35_compare_partial",
    "C35_compare_refuted"
   ],
   "note": "Right when both store the same blocks and the comparison of 0 with 0 is false; refuted otherwise (only common blocks are visited). In addition the result carries the product of the rules and of the quantities."
  },
  {
   "property": "C36",
   "status": "partial",
   "theorems": [
    "C36_svd_matrix_partial",
    "C36_svd_split_partial",
    "C36_zero_refuted"
   ],
   "note": "Any group, ring and rank, any dense decomposition of the sector matrices: valid factors, dimensions, rules, product, orthonormal columns; the new dimension has distinct quantities and is no larger than either side. No empty dimension; with a split, at least one stored block: for the zero tensor quantities are read past the end (refuted)."
  },
  {
   "property": "C37",
   "status": "proved",
   "theorems": [
    "C37_last_index",
    "C37_truncate",
    "C37_min_zero_throws"
   ],
   "note": "Values are weights of an ordered monoid (|d|^pow), batches included; size_t conversions modelled."
  },
  {
   "property": "C38",
   "status": "partial",
   "theorems": [
    "C38_first_index_partial",
    "C38_first_index_refuted",
    "C38_default_throws_refuted"
   ],
   "note": "Off by one at the minimum; the default maximum makes every call throw."
  },
  {
   "property": "C39",
   "status": "partial",
   "theorems": [
    "C39_pair_partial",
    "C39_pair_refuted"
   ],
   "note": "The order of the outputs is right; the number kept is decided by the eigenvectors, not the eigenvalues."
  },
  {
   "property": "C40",
   "status": "partial",
   "theorems": [
    "C40_truncate_partial",
    "C40_count_partial",
    "C40_product_partial",
    "C40_svd_tol_partial",
    "C40_order_refuted",
    "C40_blocks_refuted",
    "C40_max_refuted",
    "C40_min_refuted",
    "C40_eigh_throws"
   ],
   "note": "Any group, ring, order and weights: the values kept are those above one bound, and slices, sizes and product follow; a threshold that only drops zeros leaves a decomposition of the tensor. Refuted as stated: blocks of emptied sections can stay or be put out of order, equal values exceed the maximum, zero values fall below the minimum; the eigenvalue overload always throws."
  },
  {
   "property": "C41",
   "status": "partial",
   "theorems": [
    "C41_eigh_matrix_partial",
    "C41_eigh_split_partial",
    "C41_all_blocks_partial",
    "C41_first_section_refuted",
    "C41_order_refuted",
    "C41_storage_refuted",
    "C41_zero_refuted",
    "C41_truncated_refuted"
   ],
   "note": "The claim is false of the code; proved on the domain where it holds: Hermitian tensors with a block, whose stored blocks include the transposes and meet the columns of each sector in ascending order (for instance all allowed blocks stored), and whose first section has a quantity that is its own inverse. Counter-examples: every matrix whose first section has another quantity is rejected; unstored zero blocks give a wrong decomposition or an exception; the zero tensor is undefined behaviour in the split form; the truncated form never returns. torch::linalg::eigh is an argument assumed correct on Hermitian sectors."
  },
  {
   "property": "C42",
   "status": "proved",
   "theorems": [
    "C42_driver",
    "C42_sweep_returns"
   ],
   "note": "Local update, environments and convergence test are arbitrary functions; exceptions inside them are not modelled."
  },
  {
   "property": "C43",
   "status": "partial",
   "theorems": [
    "C43_label_partial",
    "C43_true_centre",
    "C43_dense_refuted",
    "C43_block_refuted",
    "C43_no_iteration_refuted"
   ],
   "note": "True when the run starts on one of the last two sites (dense: also on the first); otherwise the true centre is one to the right of the reported one (refuted)."
  },
  {
   "property": "C44",
   "status": "partial",
   "theorems": [
    "C44_gauge",
    "C44_out_of_range",
    "C44_dense",
    "C44_block_partial",
    "C44_zero_refuted",
    "C44_block_out",
    "C44_dense_out"
   ],
   "note": "State and gauge after the displacement, for dense tensors completely and for block tensors whose state is not zero, with torch::svd an arbitrary decomposition; the zero state of block tensors is refuted. The state left behind when a call throws half way is not modelled."
  },
  {
   "property": "C45",
   "status": "partial",
   "theorems": [
    "C45_dense_partial",
    "C45_constructor_partial",
    "C45_low_rank_refuted",
    "C45_block_partial",
    "C45_sizes_refuted"
   ],
   "note": "Dense check exact for tensors of rank at least three (out-of-bounds read below, refuted); the block check compares quantities only: section sizes may differ (refuted)."
  },
  {
   "property": "C46",
   "status": "partial",
   "theorems": [
    "C46_dense_obs",
    "C46_dense",
    "C46_block_obs",
    "C46_block",
    "C46_dense_default_refuted",
    "C46_dense_obs_default_refuted",
    "C46_dense_default_partial",
    "C46_dense_obs_default_partial",
    "C46_block_default_partial",
    "C46_block_obs_default_partial",
    "C46_block_default_refuted",
    "C46_block_obs_default_refuted"
   ],
   "note": "Proved for every chain and every edge tensors given by the caller, dense and block, with and without an observable. The overloads that build the edges: false of the code. Dense: shape_from(torch_shape) writes past the end of a vector, so every call is undefined behaviour; the value is right where the write is harmless. Block: the value is zero instead of the overlap when the rules left at the ends differ (for instance two orderings of the sections of an inner bond); with an observable it also depends on the order in which arguments are evaluated. The exact value is proved when both chains have the same end bonds and the observable has end bonds of one quantity. Missing: other end bonds."
  },
  {
   "property": "C47",
   "status": "partial",
   "theorems": [
    "C47_sound",
    "C47_complete_partial",
    "C47_empty_site_refuted",
    "C47_complete_refuted"
   ],
   "note": "The configuration drawn has the requested total for every group, site list and random source. It does not throw when the quantities of each site are integers with one common step; refuted in general ({0,3,5} at two sites, total 6, any number of passes). Uniformity of the draw is not modelled."
  },
  {
   "property": "C48",
   "status": "partial",
   "theorems": [
    "C48_chain_partial",
    "C48_sector_partial",
    "C48_exists_partial",
    "C48_no_bond_refuted",
    "C48_no_site_refuted",
    "C48_rule_refuted"
   ],
   "note": "Proved for at least one bond value and one site, non-empty physical dimensions; total shifted by the rules of the physical dimensions (refuted for non-neutral ones); no bond value or no site is undefined (refuted). Success proved for integers with a common step."
  },
  {
   "property": "C49",
   "status": "proved",
   "theorems": [
    "C49_Heisenberg_impl",
    "C49_Heisenberg",
    "C49_Hubbard",
    "C49_no_site"
   ],
   "note": "The operator denoted by the chain of tensors, for any commutative ring of scalars; a chain of no site is an out-of-range access."
  },
  {
   "property": "C50",
   "status": "partial",
   "theorems": [
    "C50_site_exact",
    "C50_site_refused",
    "C50_accepted_partial",
    "C50_rejected",
    "C50_refuted",
    "C50_weak_refuted",
    "C50_conserving_partial",
    "C50_conserving_rejected"
   ],
   "note": "Refuted: accepted exactly when p1 = p0 p0 and p0 = p1 p1 (so never for +1, -1), and never for couplings below the cutoff but not negligible. C50_conserving_partial is about the whole function with the compression by coalesce, for J other than 0 and at least two sites."
  },
  {
   "property": "C51",
   "status": "proved",
   "theorems": [
    "C51_left_dense",
    "C51_right_dense",
    "C51_effective_dense",
    "C51_left_block",
    "C51_right_block",
    "C51_effective_block",
    "C51_pairs_dense",
    "C51_pairs_block"
   ],
   "note": "Dense and block tensors, every chain length and every position. The effective Hamiltonian is characterised by its matrix elements between all pairs of two-site states."
  },
  {
   "property": "C52",
   "status": "partial",
   "theorems": [
    "C52_concat",
    "C52_prod",
    "C52_slice",
    "C52_reverse_partial",
    "C52_reverse_refuted",
    "C52_interval_refuted"
   ],
   "note": "reverse returns a list of twice the length (refuted); the documented interval of prod is a count (refuted)."
  },
  {
   "property": "C53",
   "status": "partial",
   "theorems": [
    "C53_sum_partial",
    "C53_sum_refuted"
   ],
   "note": "The value is always right; the result is valid iff the selection rule is neutral (refuted otherwise)."
  },
  {
   "property": "C54",
   "status": "partial",
   "theorems": [
    "C54_squeeze_dim",
    "C54_squeeze_all_partial",
    "C54_charged_refuted"
   ],
   "note": "squeeze_(dim) proved; squeeze_() throws when the removed quantities do not cancel (refuted), proved otherwise."
  },
  {
   "property": "C55",
   "status": "proved",
   "theorems": [
    "C55_construct"
   ],
   "note": "Non-empty ranges (an empty range dereferences end(), which is UB)."
  },
  {
   "property": "C56",
   "status": "proved",
   "theorems": [
    "C56_equality"
   ],
   "note": ""
  },
  {
   "property": "C57",
   "status": "partial",
   "theorems": [
    "C57_mul_scalar",
    "C57_elementwise_partial",
    "C57_elementwise_valid",
    "C57_elementwise_refuted"
   ],
   "note": "Exact condition for the claim: f(0)=0 or no block missing; refuted for pow(0)."
  },
  {
   "property": "C58",
   "status": "proved",
   "theorems": [
    "C58_add_scalar"
   ],
   "note": ""
  },
  {
   "property": "C59",
   "status": "proved",
   "theorems": [
    "C59_environments_current",
    "C59_initial"
   ],
   "note": ""
  },
  {
   "property": "C60",
   "status": "partial",
   "theorems": [
    "C60_rejects_partial",
    "C60_sizes_refuted"
   ],
   "note": "Everything but section sizes is checked; different sizes with equal products are accepted (refuted)."
  },
  {
   "property": "C61",
   "status": "proved",
   "theorems": [
    "C61_accepts",
    "C61_rejects"
   ],
   "note": ""
  },
  {
   "property": "C62",
   "status": "proved",
   "theorems": [
    "C62_anticommutation"
   ],
   "note": ""
  },
  {
   "property": "C63",
   "status": "partial",
   "theorems": [
    "C63_shape_from",
    "C63_shape_from_refuted",
    "C63_slack"
   ],
   "note": "False of the code exactly when the last dimension is dropped and another one is kept: the loop then writes one entry past the end. Right in all other cases."
  },
  {
   "property": "C64",
   "status": "proved",
   "theorems": [
    "C64_product",
    "C64_list"
   ],
   "note": "Any number of tensors; an empty list is undefined behaviour (it dereferences begin())."
  },
  {
   "property": "C65",
   "status": "partial",
   "theorems": [
    "C65_edge_partial",
    "C65_env_edge_partial",
    "C65_dense_env_edge_refuted",
    "C46_block_obs_default_refuted"
   ],
   "note": "Exact value of the edges for bonds of one conserved quantity, for both orders of evaluation of function arguments: ones when the last argument is evaluated first or the quantity is its own inverse, zeros otherwise. Dense: undefined behaviour. Missing: bonds with several quantities."
  },
  {
   "property": "C66",
   "status": "partial",
   "theorems": [
    "C66_masked_partial",
    "C66_div_refuted"
   ],
   "note": "Exact result of every element-wise operation (mul, div, pow, comparisons) for compatible operands outside the single-section case of C22; division is not the dense one where the divisor stores no block (refuted). Sharing of storage by pow_ is not modelled."
  },
  {
   "property": "C67",
   "status": "partial",
   "theorems": [
    "C67_rejects_partial",
    "C67_rejects_refuted"
   ],
   "note": "Different numbers of sections are rejected; with equal numbers, different sizes are accepted when no common block is stored (refuted)."
  },
  {
   "property": "C68",
   "status": "proved",
   "theorems": [
    "C68_sector"
   ],
   "note": "For chains of any length over any ring and group, between any bond values."
  },
  {
   "property": "C69",
   "status": "partial",
   "theorems": [
    "C69_accepted_partial",
    "C69_rejected",
    "C69_conserving_partial",
    "C69_conserving_rejected"
   ],
   "note": "Acceptance condition and equality with the dense chain; C69_conserving_partial is about the whole function with the compression by coalesce. One-site chains are missing."
  },
  {
   "property": "C70",
   "status": "proved",
   "theorems": [
    "C70_operator",
    "C70_pauli",
    "C70_fermions",
    "C70_fermions_refused"
   ],
   "note": "Shape without blocks and rank two; the significance test of from_basic_tensor_like must let 1 and -1 through."
  },
  {
   "property": "C71",
   "status": "partial",
   "theorems": [
    "C71_algebra",
    "C71_lowering_refuted",
    "C71_adjoint_lowers",
    "C71_order_refuted"
   ],
   "note": "The algebra holds. The documentation of lo is false: acting on columns it raises Sz, its adjoint lowers. pauli(shape) returns Sz first, not the lowering operator as documented."
  },
  {
   "property": "C72",
   "status": "partial",
   "theorems": [
    "C72_coalesce_partial",
    "C72_empty_refuted",
    "C72_zero_refuted"
   ],
   "note": "Any group, ring, chain length; any dense decomposition and a cutoff that drops zeros only. Every quantity of an inner bond must occur in the operator on its left. The empty chain and the zero operator without blocks give undefined behaviour (refuted)."
  },
  {
   "property": "C73",
   "status": "proved",
   "theorems": [
    "C73_ground",
    "C73_uncoupled"
   ],
   "note": "Exact arithmetic in any ordered field with conjugation and square roots (record numeric; the real and complex numbers are instances). Infinities and nan are outcomes of divisions by zero. Rounding is not modelled, so the test o + E == E means o = 0."
  },
  {
   "property": "C74",
   "status": "partial",
   "theorems": [
    "C74_update_partial",
    "C74_eigenstate_partial",
    "C74_eigenstate_refuted",
    "C74_exact",
    "C74_small_refuted"
   ],
   "note": "Dense tensors, exact arithmetic. Proved when the norm of the residual is at least 1e-15, and for eigenvectors of negative energy. False for eigenvectors whose energy is not negative: the second, zero, direction is chosen and the zero tensor is returned with energy zero (C74_eigenstate_refuted; C74_eigenstate_partial gives the result for every eigenvector). False for residuals that are not zero and below 1e-15: the state returned is never normalized (C74_small_refuted). C74_exact: the claim holds if and only if the residual is at least the threshold or the state is an eigenvector of negative energy."
  },
  {
   "property": "C75",
   "status": "partial",
   "theorems": [
    "C75_exact",
    "C75_update_partial",
    "C75_truncated",
    "C75_truncated_refuted",
    "C75_small_refuted",
    "C75_update_refuted"
   ],
   "note": "C75_exact: site tensors, norm, gauge and bond size for every pair that is not an eigenvector of its local problem with an eigenvalue that is not negative; for those the update divides zero by zero. The energy proved when the residual of the pair is at least eps (1e-15) or the pair is an eigenvector with negative eigenvalue. Refuted for an eigenvector whose eigenvalue is not negative: the updated pair is zero and its singular values are divided by zero. torch::svd is an argument with stated assumptions; numbers are exact. C75_truncated: when singular values are discarded, the energy reported is that of a unit vector whose overlap with the new pair is the root of the sum of the squares of the values kept; it is not the energy of the new chain (C75_truncated_refuted: minus one reported, zero left, for two spins and a bond of dimension one). C75_small_refuted: for a residual that is not zero and smaller than eps the update can raise the energy of the chain and report a lower one, with nothing discarded. Missing: a bound on the energy gained or lost in these two cases."
  },
  {
   "property": "C76",
   "status": "partial",
   "theorems": [
    "C76_returned",
    "C76_energy_partial",
    "C76_any_start_partial",
    "C76_returns",
    "C76_stops",
    "C76_eigenvector_refuted",
    "C76_truncated_refuted",
    "C76_no_iteration_refuted"
   ],
   "note": "Dimensions, norm, reported centre and canonical form proved for every run that returns with one iteration at least, from any chain, canonical or not (the true centre is final_centre: see C43). C76_returns: a run from a normalized canonical chain returns when no pair met is an eigenvector of its local problem with an eigenvalue that is not negative; C76_stops: it ends in a division of zero by zero when the first sweep meets one (C76_eigenvector_refuted: an eigenvector of energy one). The energy proved for runs in which every pair met has a residual of norm eps at least or is an eigenvector of negative energy (otherwise C75_update_refuted) and no singular value is discarded (otherwise C76_truncated_refuted: minus one returned, zero left, after any number of sweeps). C76_any_start_partial: for chains that are not canonical the energy of a run that returns needs these conditions only of the last update; missing are runs of one sweep on three sites or from a centre other than 0 (C85_three_sites_refuted). Refuted for maximum_iterations = 0: the energy returned is the initial value 100000. The hypotheses on the decompositions are about the matrices of the run only; 0 < slack as in C65. Exact arithmetic."
  },
  {
   "property": "C77",
   "status": "partial",
   "theorems": [
    "C77_value_partial",
    "C77_documented_refuted",
    "C77_rejects",
    "C77_inplace_partial",
    "C77_contiguous",
    "C77_inplace_lost",
    "C77_inplace_refuted",
    "C77_out_shape",
    "C77_out_shape_refuted",
    "C77_count_partial",
    "C77_count_rejects",
    "C77_count_refuted"
   ],
   "note": "value proved as beta*C + alpha*tensordot for all inputs, including broadcasting: the documented roles of the two coefficients are exchanged (refuted). In place: exact for every output that can be seen as a matrix (contiguous ones among them), nothing else written; for every other output the call returns and the result is lost (lost, refuted). tensorgdot_out accepts outputs of another shape (refuted). The counting variant is exact for equal sizes and undefined when one tensor has too few dimensions. Not modelled: negative dimensions, narrowing of sizes to int, outputs sharing storage with the operands, dtypes."
  },
  {
   "property": "C78",
   "status": "partial",
   "theorems": [
    "C78_run_partial",
    "C78_step",
    "C78_values",
    "C78_move",
    "C78_dense_move",
    "C78_block_move",
    "C78_shrink_refuted",
    "C78_moved_from_refuted",
    "C78_constructor_refuted"
   ],
   "note": "Containers as lists of tensors with an optional centre, programs as lists of operations on a list of variables. Exact: from chains whose centre is a site, an operation leaves every centre on its chain if and only if it is not one of: MPS(size, oc) off the chain, bMPS(0, oc), bMPS(begin, end), moving from a chain whose centre is not 0, and clear/erase/pop_back/resize past the centre (C78_step; whole runs C78_run_partial). Those break the claim and the next move_oc reads outside the vector (refuted theorems, for every tensor type). Not modelled: sharing of storage between copies, states left by operations that throw."
  },
  {
   "property": "C79",
   "status": "partial",
   "theorems": [
    "C79_follows_partial",
    "C79_ground_partial",
    "C79_eigenstate_partial",
    "C79_sign_refuted",
    "C79_hopping_refuted",
    "C79_nothing_refuted"
   ],
   "note": "Exact arithmetic. Proved when the Hamiltonian applied to the state has a block of the state and none before its first. False otherwise: a block before the first one of the state has its sign changed by the subtraction (C79_sign_refuted: the energy of the state returned is above the first one); when no block is common the energies have no block and a wrong state is returned (C79_hopping_refuted), or an exception is thrown (C79_nothing_refuted)."
  },
  {
   "property": "C80",
   "status": "partial",
   "theorems": [
    "C80_blocks_partial"
   ],
   "note": "For operands of rank at least one; see C18 for rank zero."
  },
  {
   "property": "C81",
   "status": "partial",
   "theorems": [
    "C81_values",
    "C81_memory",
    "C81_compare",
    "C81_references_partial",
    "C81_references_refuted",
    "C81_assign_refuted",
    "C81_moved_refuted"
   ],
   "note": "Values, exceptions and memory proved for all programs (values: programs on variables, from any state a program with references reaches). References stand for their variable until it is moved, swapped, destroyed or assigned from a reference; otherwise they dangle or name another variable (refuted). The documented change of type by assignment is refuted: bad_cast is thrown. Using a moved-from variable, also assigning to it, is undefined (refuted). Allocation failures are not modelled."
  },
  {
   "property": "C82",
   "status": "partial",
   "theorems": [
    "C82_modifiers",
    "C82_construct",
    "C82_copies",
    "C82_read",
    "C82_frame",
    "C82_permute",
    "C82_null_partial",
    "C82_null_refuted",
    "C82_tensor_refuted"
   ],
   "note": "Proved for every vector that is not null. A null vector (default constructed or moved from) supports push_back, resize with a value, clear, an empty erase, permute and constant loops; size, copy, == and the other loops dereference a null pointer, and an empty initializer list is read (refuted). Consequence: default or moved-from block tensors and bMPS(n) can not be copied, nor can a vector of them be reallocated. Iterators are positions; capacities are not modelled."
  },
  {
   "property": "C83",
   "status": "partial",
   "theorems": [
    "C83_update_partial"
   ],
   "note": "Exact arithmetic, torch::svd is an oracle. Proved when the blocks reached by one application of the operators are stored in the pair (else see C72), the residual is at least eps or the pair is an eigenvector with negative energy (else see C75_update_refuted), and the factors are as C40 needs them. The isometry holds on the values of the bond in use, on all of them when nothing is discarded and no sector of the new pair is zero. The upper limit on the bond is not claimed: see C40_blocks_refuted."
  },
  {
   "property": "C84",
   "status": "partial",
   "theorems": [
    "C84_conserved_partial",
    "C84_energy_partial"
   ],
   "note": "Exact arithmetic, torch::svd is an oracle. Edges carry one quantity each. Conservation holds for every run that returns when at each state reached the updated pair is not zero, its sizes fit the types and truncation keeps the invariant (cut_fine; C64 refutes it else). That the run returns, and the energy, need C83 at each state reached (step_fine, improvable_at) and no discarded singular value. The gradient guard and the logger are not modelled."
  },
  {
   "property": "C85",
   "status": "partial",
   "theorems": [
    "C85_chain",
    "C85_list",
    "C85_same",
    "C85_empty_refuted",
    "C85_returned",
    "C85_energy_partial",
    "C85_three_sites_refuted"
   ],
   "note": "The chains: exact for the three overloads; for no site the first element of an empty vector is read (refuted). Runs that return: dimensions, norm, reported centre and canonical form for all draws. Energy: for every number of sites but three, and for three after two sweeps, when the last pair has a residual of norm eps at least or is an eigenvector of negative energy, and no singular value is discarded at the last update. Three sites and one sweep refuted with all draws 1/2. That a run returns is not claimed: chains drawn with a small norm make it throw. Exact arithmetic; the numbers drawn are any function of the site and position."
  },
  {
   "property": "C86",
   "status": "partial",
   "theorems": [
    "C86_add",
    "C86_map",
    "C86_new",
    "C86_map_in",
    "C86_permute",
    "C86_add_in",
    "C86_add_in_move_partial",
    "C86_view_refuted",
    "C86_add_move_partial",
    "C86_add_move_refuted",
    "C86_frame",
    "C86_states",
    "C86_programs"
   ],
   "note": "Proved for add, mul and the like, permute, new tensors, mul_, add_ (operands that share memory at most at the same indices), and for programs of operations that are not done in place. Refuted: add(btensor&&) const (and sub) changes its object in the blocks it has in common with the argument; D -= B.permute(...) changes the sign of B, because the view has a count of one. Proved for add_(btensor&&): copies of the argument are left alone. Simplifications: counts are those before the operation; an operation in place computes all elements before it writes; memories are never freed. The value of a sum is that of bt_add, with its treatment of leading blocks (C19, C20). Not modelled: reshape and transpose_ as views, pow_(btensor), broadcasting in place."
  },
  {
   "property": "C87",
   "status": "partial",
   "theorems": [
    "C87_cmp_stored",
    "C87_scalar_cmp_stored",
    "C87_cmp_partial",
    "C87_cmp_refuted",
    "C87_div",
    "C87_div_in",
    "C87_scalar_div_refuted",
    "C87_anynan"
   ],
   "note": "Proved: stored blocks of all comparisons, scalar on either side; div and div_; anynan. The comparison of the whole tensor is right exactly when zero does not relate to the scalar or no element is missing; refuted otherwise (T.le(1)). Refuted: operator/(Scalar, btensor) is undefined behaviour for every tensor with a block. Simplifications: exact scalars, truth values are one and zero, element types and the exceptions of torch about them are not modelled, div_ is modelled on values.  The statements about the comparison of the whole tensor need one to differ from zero."
  },
  {
   "property": "C88",
   "status": "partial",
   "theorems": [
    "C88_chain_partial",
    "C88_exists_partial",
    "C88_passes",
    "C88_empty_refuted",
    "C88_norm_partial",
    "C88_norm_refuted",
    "C88_conserved_partial",
    "C88_energy_partial"
   ],
   "note": "Proved: the chain, if made, fits the operators and has the total quantity; with integers in equal steps it is made whenever a configuration with the total exists; every run that returns gives a chain of this quantity; for minimum_bond 1 and non-zero draws the initial chain is normalized and canonical at every site, and the run returns the energy of its chain, at most that of the initial one. Refuted: an empty chain of operators is undefined behaviour, not an exception; chains with bonds of two values are not normalized. Missing: energies for minimum_bond above 1. Simplifications: those of C48 and C84; the random numbers are an arbitrary function of site, block and position."
  },
  {
   "property": "C89",
   "status": "partial",
   "theorems": [
    "C89_dense_partial",
    "C89_block_partial",
    "C89_gradient_refuted",
    "C89_block_gradient_refuted",
    "C89_types_refuted",
    "C89_tracing_refuted"
   ],
   "note": "Exact without gradient options, dense tensors and block tensors that store a block: the operators are given back if and only if they have one element type; the state is kept if and only if the run leaves tensors of the type of the first initial one. Refuted: with a gradient option every run throws before it starts; operators of several element types are converted to the type of the first one, also after an exception; operators with gradients are traced although the option is off. What torch does with TensorOptions in Tensor::to and Tensor::options is assumed as written in Guard.v; devices and layouts are not modelled."
  },
  {
   "property": "C90",
   "status": "partial",
   "theorems": [
    "C90_svd",
    "C90_svd_trunc",
    "C90_eigh",
    "C90_matrix",
    "C90_rejects",
    "C90_trunc_partial",
    "C90_largest_refuted",
    "C90_small_refuted",
    "C90_large_refuted"
   ],
   "note": "Proved for svd with and without truncation and for eigh without truncation, for every rank and cut. For the truncated eigh the limits and which columns are kept are proved; that the values dropped are the least important, and that the tolerance applies to them, is refuted."
  },
  {
   "property": "C91",
   "status": "proved",
   "theorems": [
    "C91_ranges",
    "C91_loops",
    "C91_matrices"
   ],
   "note": "Any rank from two up; C91_loops for any order of the blocks. std::stable_sort by its meaning. Iterators moved beyond the end without being read (begin() + 1 of an empty list, the last ++it2) are not counted as undefined. C91_matrices: for rank two these ranges are those of the model of compact_dense used for C36."
  },
  {
   "property": "C92",
   "status": "partial",
   "theorems": [
    "C92_kept_partial",
    "C92_elements_partial",
    "C92_complex_refuted"
   ],
   "note": "torch::zeros without options has the default element type; what that type keeps of a number copied into it is an argument. Proved when it keeps every stored element. Refuted for a complex tensor and a real default type: the imaginary parts are lost (torch only warns). Missing: ranks above two; that torch copies this way is taken from its documentation."
  }
 ]
}