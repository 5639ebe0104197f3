{"id": "C01", "title": "Cyclic quantities form an abelian group", "statement": "For every modulus N accepted by the cyclic conserved quantity C<N>, the values 0..N-1 under the class' product, with its neutral element and inverse, form an abelian group: the product of two legal values is legal, associative and commutative, the neutral element is a unit, and x times inverse(x) is neutral.", "quantifier": "every modulus N (1..65535) and every triple of legal values", "why_tests_cant": "N^3 triples for each of 65535 moduli; unit tests use one small modulus, and 16-bit wrap-around only shows for large moduli.", "anchors": ["include/Conserved/quantity.h: conserved::C (62-165)", "include/Conserved/quantity.h: C::op", "include/Conserved/quantity.h: C::inverse_"]}
{"id": "C02", "title": "Cyclic quantity constructed from a signed integer is its residue", "statement": "Constructing C<N> from any signed 16-bit integer v yields the representative of v modulo N in 0..N-1; in particular constructing from any multiple of N yields the neutral element.", "quantifier": "every modulus N and every int16 value", "why_tests_cant": "65536 inputs times every modulus; the failing inputs are exact negative multiples.", "anchors": ["include/Conserved/quantity.h: C::C(int16_t) (96)"]}
{"id": "C03", "title": "Integer quantities form an abelian group and agree with integer addition in range", "statement": "The int16-backed integer quantity Z is an abelian group under its product, and the product of a sequence of quantities whose running sums stay inside the documented range [-32767,32767] is the ordinary integer sum.", "quantifier": "all pairs/triples of values and all finite sequences", "why_tests_cant": "2^48 triples; arbitrary length sequences.", "anchors": ["include/Conserved/quantity.h: conserved::Z (175-239)"]}
{"id": "C04", "title": "Composite quantities: group laws, total order and distance", "statement": "A composite quantity built from any list of group factors is again an abelian group componentwise; its comparison operator is a strict total order compatible with equality; and distance2 of two values is zero exactly when they are equal.", "quantifier": "every tuple of factors and all values", "why_tests_cant": "Quantifies over type parameters of a template and all their values.", "anchors": ["include/Conserved/Composite/quantity_impl.h: quantity<Groups...>", "include/Conserved/quantity.h: distance2"]}
{"id": "C05", "title": "Sorted block map behaves like a finite map", "statement": "After any sequence of insert, operator[], erase-by-iterator and clear on a block list, its keys are strictly increasing and every lookup (at, find, contains) answers exactly as a mathematical finite map with the same history would.", "quantifier": "every finite history of operations, every key type with a strict total order", "why_tests_cant": "Histories are unbounded; a test checks a few.", "anchors": ["include/blockTensor/flat_map.h: flat_map::insert", "include/blockTensor/flat_map.h: flat_map::operator[]", "include/blockTensor/flat_map.h: flat_map::at", "include/blockTensor/flat_map.h: flat_map::find", "include/blockTensor/flat_map.h: flat_map::erase"]}
{"id": "C06", "title": "erase(key) removes exactly that key", "statement": "erase(key) on the block map removes the entry of that key if present and otherwise leaves the map unchanged and returns 0.", "quantifier": "all maps and keys", "why_tests_cant": "Failure requires an absent key smaller than some present key; any finite test set may miss it.", "anchors": ["include/blockTensor/flat_map.h: flat_map::erase(const Key&) (585-594)"]}
{"id": "C07", "title": "Hinted insertion is equivalent to plain insertion", "statement": "Inserting or emplacing with any iterator of the map (or end) as a hint yields the same map as the un-hinted insertion.", "quantifier": "all maps, keys, hints", "why_tests_cant": "Depends on the relative position of hint and key in arbitrary maps.", "anchors": ["include/blockTensor/flat_map.h: flat_map::insert(hint) (295-318)", "include/blockTensor/flat_map.h: flat_map::emplace_hint", "include/blockTensor/flat_map.h: use_hint (753-771)"]}
{"id": "C08", "title": "Range insertion/merge with handlers is a keyed union", "statement": "Merging a sorted source map into a map with handlers (collision, nocollision) gives the map whose keys are the union; common keys hold collision(old,new), keys only in the source hold nocollision(new), and keys only in the destination are left untouched.", "quantifier": "all pairs of maps and all handlers", "why_tests_cant": "Depends on interleaving of two arbitrary key sequences.", "anchors": ["include/blockTensor/flat_map.h: flat_map::insert(first,last,collision,nocollision) (350-425)", "include/blockTensor/flat_map.h: flat_map::merge (601-612)"]}
{"id": "C09", "title": "Block enumeration visits every block index exactly once", "statement": "The odometer used to enumerate block indices, started at all zeros, visits every multi-index within the section counts exactly once and comes back to all zeros after exactly the product of the section counts.", "quantifier": "every rank and every list of positive section counts", "why_tests_cant": "Unbounded ranks and sizes.", "anchors": ["sources/btensor.cpp: block_increment (154-168)", "sources/btensor.cpp: increment_index_right (201-211)", "sources/btensor.cpp: increment_index_left (221-230)"]}
{"id": "C10", "title": "Flatten/unflatten of block indices are inverse bijections", "statement": "For any block shape, flattening a multi-index to a linear index and unflattening are mutually inverse on the valid ranges, and flattening is monotone for lexicographic order (so reshaping keeps the block list sorted).", "quantifier": "every shape and index", "why_tests_cant": "Unbounded ranks and sizes.", "anchors": ["sources/btensor.cpp: reshape_block_index (2898-2934)"]}
{"id": "C11", "title": "Element indices decompose uniquely into block index and in-block position", "statement": "For every tensor and every in-range element index, the element-to-block decomposition returns the block that contains the element and the offset inside it, so that (sum of preceding section sizes) + offset gives the element index back; the conserved quantity reported for an element is that of its section.", "quantifier": "every section layout and in-range element index", "why_tests_cant": "All layouts and all elements.", "anchors": ["sources/btensor.cpp: element_index_decompose (3134-3158)", "sources/btensor.cpp: to_block_basis (609-651)", "sources/btensor.cpp: element_conserved_qtt (86-105)"]}
{"id": "C12", "title": "The constructor check accepts exactly well-formed conserving tensors", "statement": "The run-time validity check passes exactly when: the metadata lengths agree with the rank and section counts, every block index has the right rank and is in range, every block satisfies the selection rule, and every block's dense shape equals the section sizes at its index; otherwise a descriptive rejection is produced.", "quantifier": "every candidate tensor", "why_tests_cant": "Two-sided characterisation over all candidate tensors.", "anchors": ["sources/btensor.cpp: check_tensor (405-467)"]}
{"id": "C13", "title": "Block access never creates a forbidden block", "statement": "block(index) on a valid tensor either returns an existing block unchanged, or adds one empty (zero) block allowed by the selection rule leaving all others unchanged, or throws; the tensor stays valid in every case.", "quantifier": "every valid tensor and every index list, including of wrong length", "why_tests_cant": "All indices and tensors, error paths.", "anchors": ["sources/btensor.cpp: block (385-397)", "sources/btensor.cpp: block_at (373)", "sources/btensor.cpp: block_conservation_rule_test (363-372)"]}
{"id": "C14", "title": "to_dense is the sum of the blocks placed at their offsets", "statement": "The dense tensor produced from a valid block tensor has, at every element index, the value of the block element containing it, and zero where no block is stored; its shape is the list of summed section sizes.", "quantifier": "every valid tensor and element index", "why_tests_cant": "All layouts.", "anchors": ["sources/btensor.cpp: to_dense (2491-2503)", "sources/btensor.cpp: full_slice (2472)"]}
{"id": "C15", "title": "Dense to block conversion round-trips", "statement": "from_basic_tensor_like followed by to_dense keeps exactly the entries of the blocks allowed by the selection rule whose norm exceeds the cutoff (all allowed non-zero blocks at cutoff 0) and zeroes the rest; converting to_dense of a valid tensor back with its own shape reproduces the same dense values.", "quantifier": "every shape tensor, dense tensor and cutoff", "why_tests_cant": "All shapes and values.", "anchors": ["sources/btensor.cpp: from_basic_impl (2505-2529)", "sources/btensor.cpp: from_basic_tensor_like"]}
{"id": "C16", "title": "Factories fill exactly the allowed blocks", "statement": "ones/full/rand-like factories produce a valid tensor in which a block is stored at index i if and only if i is in range and satisfies the selection rule.", "quantifier": "every shape and selection rule", "why_tests_cant": "All shapes.", "anchors": ["sources/btensor.cpp: factory_wrap (2340-2354)", "sources/btensor.cpp: ones", "sources/btensor.cpp: full"]}
{"id": "C17", "title": "permute is dense permute and preserves validity", "statement": "permute(p) of a valid tensor is a valid tensor whose dense form is the dense permute, and permuting by the inverse permutation gives the original tensor back.", "quantifier": "every valid tensor and permutation of its dimensions", "why_tests_cant": "All ranks, permutations and block patterns.", "anchors": ["sources/btensor.cpp: permute (1754-1802)", "include/Conserved/Composite/quantity_vector_impl.h: permute (407-424)"]}
{"id": "C18", "title": "tensordot equals the dense contraction and conserves", "statement": "For valid tensors with compatible contracted dimensions, tensordot returns a valid tensor (selection rule the product of the operands' rules) whose dense form is the dense tensordot of the dense forms, whatever the block sparsity.", "quantifier": "all pairs of valid tensors and all lists of contracted dimensions", "why_tests_cant": "All ranks, contractions and sparsity patterns; also sums of arbitrary many block products.", "anchors": ["sources/btensor.cpp: tensordot (1971-2119)", "sources/btensor.cpp: compute_tdot_shape (841-883)", "sources/btensor.cpp: check_product_compat (782-825)", "sources/btensor.cpp: permute_bl (1843-1894)"]}
{"id": "C19", "title": "Addition equals dense addition", "statement": "a.add(b) for two tensors of identical shape and rule is valid and its dense form is the dense sum, for any two sparsity patterns.", "quantifier": "all pairs of same-shape valid tensors", "why_tests_cant": "All sparsity pattern pairs.", "anchors": ["sources/btensor.cpp: add (2666-2683)", "sources/btensor.cpp: add_ (2717-2752)"]}
{"id": "C20", "title": "Scaled addition and subtraction equal the dense ones", "statement": "a.add(b,alpha), a.sub(b), a-b and a-=b have dense form dense(a)+alpha*dense(b) for any two sparsity patterns.", "quantifier": "all pairs of same-shape valid tensors, all alpha", "why_tests_cant": "The failure needs a block of a that precedes every block of b.", "anchors": ["sources/btensor.cpp: add (2666-2683)", "include/blockTensor/btensor.h: sub", "include/blockTensor/flat_map.h: insert (350-425)"]}
{"id": "C21", "title": "In-place addition accepts only tensors of identical shape", "statement": "The compatibility test guarding addition accepts two tensors exactly when they have the same rank, sections, section sizes, conserved quantities and selection rule.", "quantifier": "all pairs of tensors", "why_tests_cant": "Packed metadata of different ranks can coincide.", "anchors": ["sources/btensor.cpp: add_tensor_check (2230-2238)", "sources/btensor.cpp: test_same_shape (2223)"]}
{"id": "C22", "title": "Element-wise product with broadcasting equals the dense one", "statement": "a.mul(b) for broadcast-compatible valid tensors is a valid tensor whose dense form is the dense broadcasting product and whose rule is the product of rules.", "quantifier": "all broadcast-compatible pairs", "why_tests_cant": "All ranks, size-1 patterns, sparsity.", "anchors": ["sources/btensor.cpp: mul", "sources/btensor.cpp: mul_helpers::shape_compute (980-1084)", "sources/btensor.cpp: broadcast_operation (1630-1691)"]}
{"id": "C23", "title": "Dimension-grouping reshape loses nothing", "statement": "reshape of a valid tensor (grouping consecutive dimensions) is valid, has one block per original block with the same entries in row-major order, and reshape_as back to the original shape gives the original tensor.", "quantifier": "every valid tensor and every grouping", "why_tests_cant": "All ranks and groupings.", "anchors": ["sources/btensor.cpp: reshape (2986-3024)", "sources/btensor.cpp: reshape_as (3026-3083)"]}
{"id": "C24", "title": "basic_create_view is dense indexing", "statement": "basic_create_view with a mix of kept (-1) and fixed element indices yields a valid tensor whose dense form is the dense form of the input indexed at the fixed positions.", "quantifier": "every valid tensor and every index pattern", "why_tests_cant": "Fails only for patterns with a fixed index after the last kept one.", "anchors": ["sources/btensor.cpp: basic_create_view (661-706)", "sources/btensor.cpp: shape_from (492-583)"]}
{"id": "C25", "title": "shape_from with fixed indices produces the rule of the slice", "statement": "shape_from(dims) keeps the sections of the kept dimensions and a selection rule such that a block of the slice is allowed exactly when the corresponding block of the input is allowed.", "quantifier": "every tensor and index pattern", "why_tests_cant": "All layouts and groups.", "anchors": ["sources/btensor.cpp: shape_from (492-583)"]}
{"id": "C26", "title": "Assigning to a view writes exactly the addressed elements", "statement": "basic_index_put_(dims, value) on a valid tensor makes the addressed slice equal to value and leaves every other element unchanged.", "quantifier": "every valid tensor, pattern and compatible value", "why_tests_cant": "All patterns.", "anchors": ["sources/btensor.cpp: impl_basic_index_put_ (711-742)", "sources/btensor.cpp: basic_index_put_ (744-762)"]}
{"id": "C27", "title": "Inverting conserved quantities preserves validity and is an involution", "statement": "inverse_cvals of a valid tensor is valid, keeps every element, and applying it twice gives the tensor back; conj does the same while conjugating the elements.", "quantifier": "every valid tensor", "why_tests_cant": "All groups, ranks, blocks.", "anchors": ["sources/btensor.cpp: inverse_cvals_ (2164)", "sources/btensor.cpp: conj (2156)"]}
{"id": "C28", "title": "Shifting conserved values between a dimension and the rule preserves validity", "statement": "cval_shift_(shift, dim) on a valid tensor gives a valid tensor with the same blocks.", "quantifier": "every valid tensor, shift and dimension", "why_tests_cant": "Fails only when the shift is not its own inverse.", "anchors": ["sources/btensor.cpp: cval_shift_ (2180)", "sources/btensor.cpp: shift_impl (2214)"]}
{"id": "C29", "title": "Selection rule can only be overwritten on block-less tensors", "statement": "set_selection_rule_ and shift_selection_rule_ change only the rule and only when no block is stored; otherwise they throw and leave the tensor unchanged.", "quantifier": "every tensor and rule", "why_tests_cant": "All histories reaching the call.", "anchors": ["sources/btensor.cpp: shift_selection_rule_/set_selection_rule_ (2195-2208)"]}
{"id": "C30", "title": "allclose compares the dense forms", "statement": "allclose(a,b) on same-shape valid tensors is true exactly when every pair of dense elements is close, whatever blocks are stored (missing blocks count as zeros).", "quantifier": "all pairs, all tolerances", "why_tests_cant": "All sparsity pattern pairs.", "anchors": ["sources/btensor.cpp: allclose (2544-2590)"]}
{"id": "C31", "title": "any() is the disjunction over all elements", "statement": "any() on a boolean block tensor is true exactly when at least one stored element is true.", "quantifier": "every boolean tensor", "why_tests_cant": "Fails depending on the order of blocks.", "anchors": ["sources/btensor.cpp: any (3102-3115)"]}
{"id": "C32", "title": "find_selection_rule finds a rule covering the whole tensor", "statement": "If find_selection_rule(t, shape) returns a rule, every element of t above the cutoff lies in a block allowed by that rule; if no rule covers the tensor it throws.", "quantifier": "all dense tensors and shapes", "why_tests_cant": "All layouts and values.", "anchors": ["sources/btensor.cpp: find_selection_rule (2592-2644)"]}
{"id": "C33", "title": "The allocation bound is the number of allowed blocks", "statement": "The number of blocks for which the constructors reserve room is exactly the number of block indices allowed by the selection rule, or the caller's cap when that is smaller; a full tensor therefore never needs a reallocation.", "quantifier": "every shape", "why_tests_cant": "Counting over all indices.", "anchors": ["sources/btensor.cpp: btensor_compute_max_size (169-190)"]}
{"id": "C34", "title": "Batched matrix product equals the dense one", "statement": "bmm of two valid tensors with matching batch dimensions is valid with dense form the dense batched product.", "quantifier": "all compatible pairs", "why_tests_cant": "All ranks and sparsity patterns.", "anchors": ["sources/btensor.cpp: bmm (1304-1497)"]}
{"id": "C35", "title": "Element-wise comparisons equal the dense comparisons", "statement": "ge/le/gt/lt/eq/not_equal between same-shape valid tensors have a dense form equal to the comparison of the dense forms.", "quantifier": "all same-shape pairs", "why_tests_cant": "Needs positions where both operands store no block.", "anchors": ["sources/btensor.cpp: comparisons (1693-1735)", "sources/btensor.cpp: broadcast_operation (1630-1691)"]}
{"id": "C36", "title": "Block SVD reconstructs the tensor", "statement": "Given that the dense SVD of each compacted matrix satisfies M = U diag(d) V^H, the factors returned by the block SVD satisfy: U has the input's rule, V and d are neutral, all are valid, and contracting U*d with conj(V) over the bond gives the input back.", "quantifier": "every valid tensor, every correct dense SVD", "why_tests_cant": "All block patterns; grouping by conserved quantity.", "anchors": ["sources/btensor_linalg.cpp: svd (390-534)", "sources/btensor_linalg.cpp: compact_dense (199-255)", "sources/btensor_linalg.cpp: reorder_by_cvals (30-67)"]}
{"id": "C37", "title": "Truncation keeps the requested number of values and respects the error", "statement": "For a descending list of at least one value and 1 <= min <= max, the number of kept values k satisfies min(min,len) <= k <= max; the discarded weight is at most tol^pow unless max forced it; and keeping one value less would violate the tolerance or the minimum.", "quantifier": "every list of values, tol, pow, min, max", "why_tests_cant": "All lists and parameters.", "anchors": ["sources/LinearAlgebra.cpp: compute_last_index (57-75)", "sources/LinearAlgebra.cpp: truncate (77-84)"]}
{"id": "C38", "title": "Ascending truncation keeps the requested number of values", "statement": "compute_first_index_ascending returns an index so that the rejected values' weight is below the tolerance and the number of kept values lies between min_size and max_size.", "quantifier": "every ascending list and parameters", "why_tests_cant": "All lists and parameters, including max_size larger than the list (the default).", "anchors": ["sources/LinearAlgebra.cpp: compute_first_index_ascending (23-45)"]}
{"id": "C39", "title": "Truncated dense eigendecomposition truncates according to the eigenvalues", "statement": "truncate((e,u)) chooses the number of kept values from the eigenvalues e and returns the tensors in the order given.", "quantifier": "every pair of tensors", "why_tests_cant": "Requires relating the two outputs over all inputs.", "anchors": ["sources/LinearAlgebra.cpp: truncate (87-91, 98-103)", "include/LinearAlgebra.h: truncate"]}
{"id": "C40", "title": "Block-level truncation", "statement": "truncate on block SVD factors keeps, in every block, exactly the values above the global threshold, keeps at least one value (and at least min) and at most max values, and removes the matching slices and blocks of U and V.", "quantifier": "every valid d and factors, parameters", "why_tests_cant": "All block patterns.", "anchors": ["sources/btensor_linalg.cpp: truncate_impl (657-755)", "sources/btensor_linalg.cpp: remove_unit_blocks (689-708)"]}
{"id": "C41", "title": "Block eigh accepts every Hermitian tensor", "statement": "eigh on a valid Hermitian block tensor returns eigenpairs: the result is valid and U diag(e) U^H is the input.", "quantifier": "every valid Hermitian tensor", "why_tests_cant": "Fails depending on the conserved quantity of the first section and on the stored block pattern.", "anchors": ["sources/btensor_linalg.cpp: eigh (294-389)", "sources/btensor_linalg.cpp: compact_dense_single (80-150)"]}
{"id": "C42", "title": "A DMRG round trip stays in bounds, covers every bond and returns", "statement": "From every starting centre of every chain of two or more sites, each sweep of the DMRG driver touches only existing sites and environments, updates every inner bond exactly twice and each end bond exactly once (the single bond of a two-site chain twice), and ends on the bond and with the direction it started with; the driver never throws its 'lost the orthogonality center' error.", "quantifier": "all chain lengths, starting centres, iteration counts, convergence outcomes and local updates", "why_tests_cant": "Needs every length and start; tests run one length.", "anchors": ["sources/dmrg.cpp: sweep (127-142)", "sources/dmrg.cpp: dmrg_impl (219-334)", "sources/dmrg.cpp: dmrg_2sites_update (144-207)"]}
{"id": "C43", "title": "The reported orthogonality centre is the true one after DMRG", "statement": "After dmrg returns, all sites left of orthogonality_center are left-orthogonal and all sites right of it are right-orthogonal.", "quantifier": "every chain length, starting centre, and number of iterations", "why_tests_cant": "All lengths, positions and numbers of sweeps.", "anchors": ["sources/dmrg.cpp: dmrg_2sites_update (144-207)", "sources/dmrg.cpp: dmrg_impl (219-334)"]}
{"id": "C44", "title": "Moving the orthogonality centre preserves the state and the gauge", "statement": "move_oc(i) keeps the represented state unchanged, ends with orthogonality_center = i with left/right orthogonal sites on each side, or throws without change if i is out of range.", "quantifier": "every chain, target and any correct SVD", "why_tests_cant": "All lengths and moves.", "anchors": ["sources/MPT.cpp: MPS::move_oc (27-74)", "sources/MPT.cpp: bMPS::move_oc (75-111)"]}
{"id": "C45", "title": "MPS/MPO construction check", "statement": "check_ranks on a non-empty list of tensors is true exactly when every tensor has the required rank and neighbouring bond dimensions match.", "quantifier": "every list of tensors", "why_tests_cant": "All lengths and shapes.", "anchors": ["sources/MPT.cpp: MPS::check_ranks (120-132)", "sources/MPT.cpp: MPO::check_ranks (170-183)"]}
{"id": "C46", "title": "Chain contraction equals the full inner product", "statement": "contract(a,b) and contract(a,b,obs) equal the sum over all physical configurations of the product of the chain amplitudes.", "quantifier": "all chains of equal length and compatible sizes", "why_tests_cant": "Exponentially many configurations; all lengths.", "anchors": ["sources/MPT.cpp: contract (211-292)"]}
{"id": "C47", "title": "Random constrained configurations satisfy the constraint", "statement": "When a random block MPS is requested with a total quantity, every product-state configuration drawn has exactly that total quantity (or the call throws); and the call does not throw when some configuration has that total.", "quantifier": "every random source, length, physical dimensions, constraint", "why_tests_cant": "All random seeds.", "anchors": ["sources/MPT.cpp: generate_random_string (311-371)"]}
{"id": "C48", "title": "Random block MPS is a valid chain in the requested sector", "statement": "random_bMPS returns a chain whose neighbouring bonds carry opposite quantities and whose total quantity is the constraint, for every random source.", "quantifier": "every random source, length, bond dimension, constraint", "why_tests_cant": "All seeds.", "anchors": ["sources/MPT.cpp: random_bMPS_impl (423-462)", "sources/MPT.cpp: make_right_side (387-421)"]}
{"id": "C49", "title": "Hamiltonian MPO equals the sum of local terms", "statement": "For every chain length, contracting the Heisenberg (resp. Hubbard) MPO gives the sum over sites of the local term and over neighbouring pairs of the coupling terms.", "quantifier": "every chain of at least one site, every coupling", "why_tests_cant": "All lengths.", "anchors": ["sources/models.cpp: Heisenberg_impl", "sources/models.cpp: Hubbard"]}
{"id": "C50", "title": "Conserving Heisenberg MPO exists for spin conservation", "statement": "Heisenberg(J, length, phys_shape) succeeds for the usual spin-conserving physical index (quantities +1 and -1).", "quantifier": "every spin-like physical index", "why_tests_cant": "Requires solving for all quantities for which the construction is accepted.", "anchors": ["sources/models.cpp: Heisenberg (bMPO)", "sources/models.cpp: to_bMPO"]}
{"id": "C51", "title": "Environment recursion equals partial contraction", "statement": "The left (right) environments computed site by site equal the contraction of all sites to the left (right), and the two-site effective Hamiltonian applied to the merged state equals the partial derivative of the full contraction.", "quantifier": "all chains and positions", "why_tests_cant": "All lengths.", "anchors": ["sources/dmrg.cpp: compute_left_env_impl", "sources/dmrg.cpp: compute_right_env_impl", "sources/dmrg.cpp: hamil2site_times_state_impl"]}
{"id": "C52", "title": "Dimension list helpers", "statement": "concat concatenates, prod multiplies, slice cuts, and reverse returns the list in the opposite order with the same length.", "quantifier": "every list of sizes", "why_tests_cant": "All lists.", "anchors": ["sources/dimension_manip.cpp"]}
{"id": "C53", "title": "sum() of a valid tensor is a valid scalar tensor with the sum of all elements", "statement": "sum() of any valid tensor returns a valid rank-0 tensor whose item is the sum of all dense elements.", "quantifier": "every valid tensor", "why_tests_cant": "All rules and blocks.", "anchors": ["sources/btensor.cpp: sum (1499-1509)", "sources/btensor.cpp: item (322-331)"]}
{"id": "C54", "title": "squeeze removes exactly the size-one dimensions", "statement": "squeeze() and squeeze(dim) of a valid tensor give a valid tensor with the same elements and the size-one dimension(s) removed, whatever the conserved quantity carried by the removed dimension.", "quantifier": "every valid tensor", "why_tests_cant": "Fails only for non-neutral removed dimensions.", "anchors": ["sources/btensor.cpp: squeeze_ (2120-2144)"]}
{"id": "C55", "title": "Constructing a block map from an unsorted list", "statement": "Building a block map from any non-empty range or initializer list of entries, in any order and with repeated keys, gives a map with strictly increasing keys containing every key of the range exactly once, each with one of the values given for it.", "quantifier": "every non-empty list of entries", "why_tests_cant": "All orders and repetition patterns.", "anchors": ["include/blockTensor/flat_map.h: range and initializer_list constructors (149-197)", "include/blockTensor/flat_map.h: filter_unique (776-794)"]}
{"id": "C56", "title": "Equality of block maps", "statement": "operator== on two block maps is true exactly when they hold the same entries.", "quantifier": "every pair of maps", "why_tests_cant": "All sizes and contents.", "anchors": ["include/blockTensor/flat_map.h: operator== (797-815)"]}
{"id": "C57", "title": "Scalar multiplication and element-wise maps equal the dense ones", "statement": "mul(Scalar), sqrt, abs and pow(Scalar) of a valid tensor give a valid tensor of the same shape whose dense form is the dense tensor mapped element by element.", "quantifier": "every valid tensor and scalar", "why_tests_cant": "All sparsity patterns; missing blocks are never visited, so any function with f(0) not 0 must fail.", "anchors": ["sources/btensor.cpp: sqrt/abs/pow (1511-1562)", "sources/btensor.cpp: mul(Scalar)"]}
{"id": "C58", "title": "Adding a constant touches exactly the allowed elements", "statement": "add(c, alpha) and add_(c, alpha) add c*alpha to every element of every block the selection rule allows (stored or not), leave all other elements zero and give a valid tensor.", "quantifier": "every valid tensor whose dimensions are non-empty, all scalars", "why_tests_cant": "All sparsity patterns and selection rules.", "anchors": ["sources/btensor.cpp: add(Scalar), add_(Scalar) (1602-1615)"]}
{"id": "C59", "title": "DMRG environments are never stale", "statement": "At every local update of every sweep, the left (right) environment read is the one obtained by absorbing, site by site, all the current sites to the left (right) of the pair being updated, whatever the previous updates did to the sites.", "quantifier": "all chain lengths, starting centres, numbers of sweeps, local update results", "why_tests_cant": "A stale environment changes only convergence, which no unit test detects.", "anchors": ["sources/dmrg.cpp: dmrg_2sites_update (144-207)", "sources/dmrg.cpp: generate_env_impl (370-409)", "sources/dmrg.cpp: sweep (127-142)"]}
{"id": "C60", "title": "Incompatible contractions are rejected", "statement": "tensordot throws, and produces no tensor, whenever the contracted dimensions differ in number, are repeated, or have sections that differ in number, in size, or whose conserved quantities are not inverse of each other.", "quantifier": "all pairs of block tensors, all lists of in-range dimensions", "why_tests_cant": "All shapes: an accepted mismatch gives silently wrong numbers.", "anchors": ["sources/btensor.cpp: check_product_compat (782-825)", "sources/btensor.cpp: compute_tdot_shape (841-883)", "sources/btensor.cpp: tensordot (1971-2119)"]}
{"id": "C61", "title": "reshape_as accepts exactly the compatible shapes", "statement": "reshape_as(other) succeeds exactly when the blocks of both shapes, listed in row-major order, have pairwise equal numbers of elements and equal total conserved quantities; it then returns a valid tensor with the sections of other, the selection rule of the input and the same entries in row-major order. Otherwise it throws.", "quantifier": "every valid tensor and every well-formed shape, no dimension without sections", "why_tests_cant": "All pairs of shapes; a wrongly accepted pair moves entries to forbidden blocks.", "anchors": ["sources/btensor.cpp: reshape_as (3026-3083)", "sources/btensor.cpp: compatible_c_vals, compatible_block_size (2944-2984)"]}
{"id": "C62", "title": "Fermion operators of the chain anticommute canonically", "statement": "The operators c_up, c_dn and F returned by fermions(), extended to a chain by placing F on every earlier site, satisfy the canonical anticommutation relations: two annihilation operators anticommute, and an annihilation and a creation operator anticommute to one on the same site and spin and to zero otherwise.", "quantifier": "every chain length, every pair of sites and spins", "why_tests_cant": "All lengths and pairs; a sign error in one matrix element is invisible in small spectra.", "anchors": ["sources/operators.cpp: fermions (21-46)", "sources/models.cpp: Hubbard (117-147)"]}
{"id": "C63", "title": "Dropping dimensions from the shape of a torch tensor", "statement": "shape_from(torch_shape, inds) returns the sizes of the dimensions marked -1, in order, and writes nothing outside its own vector.", "quantifier": "every shape and every index list of the same length", "why_tests_cant": "A one-past-the-end write is invisible to value checks on common allocators.", "anchors": ["sources/btensor.cpp: shape_from(torch_shape, inds) (2286-2306)"]}
{"id": "C64", "title": "The shape of a product of block tensors", "statement": "tensor_product_shape and shape_from(list) return an empty valid tensor whose dimensions, sections and conserved quantities are those of the operands one after the other and whose selection rule is the product of theirs.", "quantifier": "every non-empty list of well-formed tensors of any rank", "why_tests_cant": "All ranks and section counts; later contractions silently use a wrong rule.", "anchors": ["sources/btensor.cpp: tensor_product_shape (1937-1947)", "include/blockTensor/btensor.h: shape_from(list) (1001-1016)"]}
{"id": "C65", "title": "The edges of ones do not depend on the order of evaluation", "statement": "edge_shape_prep followed by ones_like gives the vector of ones on the dual of the chosen bond, and the three-dimensional edge of generate_env is all ones on the bonds of state and Hamiltonian, whatever the order in which the compiler evaluates function arguments.", "quantifier": "every tensor with non-empty dimensions whose bond carries one conserved quantity", "why_tests_cant": "The order is unspecified by the language; a test sees only that of its own compiler.", "anchors": ["sources/dmrg.cpp: edge_shape_prep (335-345)", "sources/dmrg.cpp: trivial_edge (347-365)"]}
{"id": "C66", "title": "Element-wise operations act exactly on common blocks", "statement": "div, pow and the comparisons of two broadcast-compatible valid tensors return a valid tensor, with the combined sections, the products of the quantities and of the rules, whose blocks are exactly those for which both operands store a block, with the function applied element by element; the dense form is the dense operation.", "quantifier": "every function, every pair of broadcast-compatible tensors", "why_tests_cant": "All sparsity patterns; a block missing in one operand gives 0 whatever the function.", "anchors": ["sources/btensor.cpp: broadcast_operation (1630-1691)", "sources/btensor.cpp: div, pow (1736-1748)"]}
{"id": "C67", "title": "Incompatible broadcasts are rejected", "statement": "Every element-wise operation throws when some aligned dimension has different sections in both operands and size one in neither.", "quantifier": "every pair of valid tensors", "why_tests_cant": "All shapes and sparsity patterns; acceptance is silent when no block is common.", "anchors": ["sources/btensor.cpp: mul_helpers::shape_compute (980-1084)", "sources/btensor.cpp: broadcast_operation (1630-1691)"]}
{"id": "C68", "title": "Block chains only have amplitudes in the sector of their rules", "statement": "For a chain of valid block tensors whose neighbouring bonds are dual to each other, the amplitude of a physical configuration between two bond values is zero unless the product of the quantities of the configuration and of the right bond value equals the product of the quantity of the left bond value and of the selection rules of all sites.", "quantifier": "all chain lengths, tensors, configurations, bond values, rings and quantity groups", "why_tests_cant": "The number of configurations grows exponentially with the length; tests check the rule of single tensors.", "anchors": ["include/MPT.h:300-404", "sources/MPT.cpp:423-462"]}
{"id": "C69", "title": "Conserving Hubbard MPO", "statement": "Hubbard(U, mu, length, phys_shape) with quantities p0..p3 of the four states is accepted exactly when p0 p0 is neutral and p0 p3 = p1 p2 (couplings zero or above the cutoff), and then the block tensors denote the same operator as the dense Hubbard chain.", "quantifier": "every group of quantities, couplings, length >= 2 and physical index", "why_tests_cant": "Requires all quantities and couplings; a test fixes one physical index.", "anchors": ["sources/models.cpp: Hubbard (bMPO)", "sources/models.cpp: to_bMPO"]}
{"id": "C70", "title": "Operators built with conserved quantities denote the dense operators and carry their quantity", "statement": "fermions(shape) and pauli(shape) return block tensors that pass check_tensor, have the row and column structure of shape, and whose to_dense equals the operators of fermions() and pauli(). The selection rule of each is the product of the quantities of the row and column of any of its non-zero elements. When some operator has non-zero elements with different quantities, the call throws logic_error instead of returning a truncated operator. For pauli this never happens; for fermions it happens exactly when the quantities of the four states do not satisfy p0 p3 = p1 p2.", "quantifier": "for all groups, all quantities and section structures of the physical space", "why_tests_cant": "Tests use two or three assignments of quantities; the acceptance condition and the selection rule are statements over every group and every assignment.", "anchors": ["sources/operators.cpp: fermions(const btensor&)", "sources/operators.cpp: pauli(const btensor&)", "sources/btensor.cpp: find_selection_rule"]}
{"id": "C71", "title": "The Pauli matrices obey their algebra, and lo is the documented lowering operator", "statement": "The matrices of pauli() satisfy the products of the Pauli matrices, with i sigma_y in place of sigma_y; lo is half of Sx + iSy. lo takes the states of higher Sz to those of lower Sz and destroys the lower ones, as documented, and pauli(shape) returns lowering operator, Sz and identity in that order.", "quantifier": "for all coefficient rings and state vectors", "why_tests_cant": "The statement about lo is over all eigenvectors; the tests only use lo inside Hamiltonians that are symmetric under its exchange with its adjoint, so they cannot tell the two apart.", "anchors": ["sources/operators.cpp: pauli", "include/operators.h"]}
{"id": "C72", "title": "Compressing an operator chain keeps the operator", "statement": "bMPO::coalesce with the default cutoff leaves a chain of valid tensors that denotes the same operator: every matrix element between physical configurations and outer bond values is what it was, and so are the outer bonds, the physical dimensions and the selection rule of each tensor. Every inner bond has distinct quantities, no more sections than before, and is no larger.", "quantifier": "for all chains of rank-four block tensors that fit together, any number of sites, group of quantities, section structure and stored blocks", "why_tests_cant": "Tests compress one or two small Hamiltonians and look at the energies; the claim is about every matrix element of every chain.", "anchors": ["sources/MPT.cpp: bMPO::coalesce", "sources/btensor_linalg.cpp: svd, truncate", "sources/btensor.cpp: mul_, tensordot, permute"]}
{"id": "C73", "title": "The two-vector eigenvalue problem of the update", "statement": "eig2x2Mat(a0, a1, b), for real a0 and a1 and any b, throws nothing and returns three finite numbers: the lowest eigenvalue of the Hermitian matrix with rows (a0, b*) and (b, a1), and the components of one of its normalized eigenvectors, the first real and not negative. When b is zero the vector is the basis vector of the smaller diagonal element, the second one if they are equal, although the general formula divides zero by zero there.", "quantifier": "all real a0 and a1, all real or complex b, exact arithmetic", "why_tests_cant": "the degenerate inputs (equal diagonal, zero coupling) are a measure-zero set that random tests miss, and minimality is a statement about all vectors", "anchors": ["sources/dmrg.cpp:543-590"]}
{"id": "C74", "title": "The two-site update lowers the energy", "statement": "two_sites_update(state, hamil, Lenv, Renv), for a normalized state and a Hermitian effective Hamiltonian, throws nothing and returns an energy E and a tensor of the shape of the state that is normalized, has energy E, is a combination of the state and of the Hamiltonian applied to it, and no combination of the two has a lower energy; so E is at most the energy of the state.", "quantifier": "all sizes of bonds and physical dimensions, all environments and Hamiltonians with a Hermitian matrix, all normalized states, real or complex, exact arithmetic", "why_tests_cant": "tests compare final energies of a few models; whether the update can raise the energy or lose the state (for example when the state already is an eigenvector) is a statement about all states", "anchors": ["sources/dmrg.cpp:592-653", "sources/dmrg.cpp:520-541"]}
{"id": "C75", "title": "The DMRG update of a pair of sites keeps the chain normalized and lowers its energy", "statement": "Let a dense chain be normalized, with left isometries before a pair of neighbouring sites and right isometries after it, and let the chain of operators be Hermitian. The update of the pair by dmrg_2sites_update succeeds; the chain with the two new sites is again a chain of the same end bonds and normalized; moving forward the first new site is a left isometry, moving back the second one is a right isometry; the new bond has at least min(minimum, number of singular values) and at most maximum values; and when no singular value is discarded the reported energy is the energy of the new chain and not above that of the old one.", "quantifier": "all dense chains, positions, directions, Hermitian chains of operators with any bonds, edge weights, truncation limits and weights, over exact real or complex numbers", "why_tests_cant": "the claim relates contractions of a whole chain before and after a decomposition, for all tensors; unit tests compare converged energies of a few models with a tolerance", "anchors": ["sources/dmrg.cpp:144-207", "sources/LinearAlgebra.cpp:57-135"]}
{"id": "C76", "title": "A run of DMRG returns the energy of the normalized canonical chain it leaves", "statement": "dmrg(hamiltonian, state, options), for dense tensors: for a Hermitian chain of operators and a normalized chain in canonical form with two sites at least, the call returns, the energy returned is that of the chain left behind and is not above that of the chain given, the energies of the successive updates never rise; the chain keeps its dimensions and has norm one and canonical form, with its centre at the site reported or, for runs that start inside the chain, one further right.", "quantifier": "for all chains, dimensions, bonds, operators, starting centres, numbers of iterations, convergence criteria, truncation options and all correct singular value decompositions", "why_tests_cant": "The statement is about every sequence of updates and every Hamiltonian; tests run a handful of Hamiltonians and compare the final energy with a tolerance, and do not check the energies in between, the norm, or the position of the centre.", "anchors": ["sources/dmrg.cpp:101-107", "sources/dmrg.cpp:127-207", "sources/dmrg.cpp:277-334", "sources/dmrg.cpp:370-409"]}
{"id": "C77", "title": "Generalised contraction: value, coefficients, and where the result is written", "statement": "tensorgdot(C, A, B, dims1, dims2, beta, alpha) returns alpha*C + beta*tensordot(A, B, dims1, dims2) (roles of the coefficients as documented); tensorgdot_ and tensorgdot_out leave that value in the output tensor and change no other place of its storage, whatever the strides of the output; what torch::tensordot rejects and outputs of another shape are rejected; tensorgdot_ with a number k of dimensions contracts the last k of A with the first k of B.", "quantifier": "all dense tensors A, B, C (any ranks, sizes including 0 and 1), all lists of dimensions, all coefficients, all storages and strides of the output with no two elements in the same place", "why_tests_cant": "the tests use coefficients one, contiguous rank-2 outputs and equal sizes: the exchange of the coefficients, size-one broadcasting and non-contiguous outputs are never seen", "anchors": ["sources/tensorgdot.cpp:34-192", "include/tensorgdot.h:21-86"]}
{"id": "C78", "title": "The orthogonality centre of an MPS is one of its sites, whatever is done to the container", "statement": "After any sequence of the public operations of MPS and bMPS (constructors, copy, move, assignment, swap, to, to_, the vector functions clear/insert/erase/push_back/pop_back/resize, element assignment, move_oc) on any number of variables, orthogonality_center has a value and is a position of the chain (0 for an empty chain), so that move_oc reads only tensors of the chain.", "quantifier": "all sequences of operations on any number of MPS (bMPS) variables, all tensors, all arguments", "why_tests_cant": "The invariant ranges over sequences of operations on several variables, including moved-from ones and the std::vector functions every chain inherits; a test exercises a few constructions and never a removal followed by a displacement.", "anchors": ["include/MPT.h:89-275", "include/MPT.h:302-405", "include/MPT.h:514-620", "include/property.h:30-60", "sources/MPT.cpp:27-111"]}
{"id": "C79", "title": "The update of two sites of block tensors does what it does for dense ones", "statement": "two_sites_update(state, hamiltonian, environments) for btensor arguments whose conserved quantities match and whose Hamiltonian changes no quantity returns the block form of the energy and state it returns for the dense forms of its arguments; hence the state returned is normalized, has the energy returned, and this is the lowest one among the combinations of the state and the Hamiltonian applied to it.", "quantifier": "for all groups of conserved quantities, bonds, sections, blocks stored or absent, Hermitian effective Hamiltonians and normalized states", "why_tests_cant": "The block code takes other paths for absent blocks (subtraction of tensors with different blocks, energies without a block, divisions of them); which ones depends on the set of blocks, of which a test sees a few.", "anchors": ["sources/dmrg.cpp:520-653", "sources/btensor.cpp:1630-1691", "sources/btensor.cpp:2666-2750", "sources/btensor.cpp:322-331", "sources/btensor.cpp:3089-3115"]}
{"id": "C80", "title": "Which blocks a contraction stores", "statement": "tensordot of two btensors stores a block for exactly the pairs of stored blocks in the same sections of the contracted dimensions, whatever their values: none is dropped because its value is zero, none is created without such a pair.", "quantifier": "for all valid tensors, all compatible lists of contracted dimensions, all sets of blocks", "why_tests_cant": "The set of stored blocks depends on the order in which two sorted lists of blocks are walked, with any number of shared and unshared sections; a test sees a few lists, and compares values, which do not tell a block of zeros from an absent one.", "anchors": ["sources/btensor.cpp:1971-2143"]}
{"id": "C81", "title": "Type-erased quantities have the values of the groups they erase", "statement": "Programs over any_quantity variables (construction, copy, move, assignments, op, products, inverses, swaps, destruction, through values or references) leave in every variable the value the underlying group gives, throw bad_cast exactly when two quantities of different types meet and then change nothing, never free or leak an object twice, and a reference any_quantity_ref to a variable stands for it; assignments change the underlying type as documented.", "quantifier": "for all families of quantity types, all sequences of operations on any number of variables and references", "why_tests_cant": "The claim ranges over sequences of operations with aliasing, moved-from variables and dangling references; tests build a few quantities of two types and apply each operation once.", "anchors": ["include/Conserved/Composite/cquantity.h:40-330", "include/Conserved/Composite/quantity_impl.h:100-360", "sources/any_quantity.cpp:15-38"]}
{"id": "C82", "title": "Vectors of type-erased quantities behave as std::vector", "statement": "any_quantity_vector (construction, copy, move, assignment, element access, push_back, pop_back, resize, insert, erase, clear, swap, comparison, permute) gives the elements std::vector gives, throws bad_cast for a quantity of another type and then changes nothing; permute moves whole sections; a default constructed or moved-from vector is an empty vector, so that default constructed block tensors and chains bMPS(n) can be copied and grown.", "quantifier": "for all families of quantity types, all vectors, arguments and sequences of operations on any number of vectors", "why_tests_cant": "The claim ranges over all operations applied to vectors in all states, null ones included, and all permutations of sections; tests use a few vectors, never a null one.", "anchors": ["include/Conserved/Composite/quantity_vector.h:26-300", "include/Conserved/Composite/quantity_vector_impl.h:300-510", "include/blockTensor/btensor.h:137-155", "include/MPT.h:514-540"]}
{"id": "C83", "title": "The update of a pair of block sites keeps the norm and the quantities and does not raise the energy", "statement": "For every normalized chain of block tensors with isometries on both sides of a pair of neighbouring sites, every Hermitian chain of operators that conserves the quantities and every accuracy, the update of the pair returns two block tensors with the same outer dimensions whose bond is shared, the first with the product of the rules of the two old sites and the second with the neutral rule; the new chain is normalized, the site left behind is an isometry from the values of the bond that the other one uses, the energy returned is not above the one of the old chain, and when no singular value is discarded it is the energy of the new chain.", "quantifier": "for all chains of block tensors, operators, positions, both directions, all groups of conserved quantities, accuracies and bond limits", "why_tests_cant": "A test follows one model on a few sites; whether the sectors, the normalisation and the direction fit together for every block structure can not be enumerated.", "anchors": ["sources/dmrg.cpp:144-207", "sources/btensor_linalg.cpp:503-534", "sources/btensor.cpp:1499-1562"]}
{"id": "C84", "title": "A whole run of DMRG on block tensors conserves the quantities, and returns the energy of the chain it returns", "statement": "For every chain of block tensors and every chain of operators of neutral total quantity, dmrg on block tensors returns a chain of valid tensors with the same edges, physical dimensions and total quantity, whose amplitudes vanish outside this quantity, and a neutral energy; the energies of the updates never rise, and when no singular value is discarded the energy returned is that of the normalized chain returned.", "quantifier": "for all chains of at least two sites, operators, starting centres, numbers of sweeps, groups of conserved quantities and bond limits", "why_tests_cant": "A run goes through many updates, each on tensors made by the one before; tests run it on one or two models and compare one number.", "anchors": ["sources/dmrg.cpp:92-100", "sources/dmrg.cpp:127-207", "sources/dmrg.cpp:219-273", "sources/dmrg.cpp:370-409"]}
{"id": "C85", "title": "DMRG without an initial state: random chains, and the energy of the chain returned", "statement": "For every non-empty chain of operators, every bond dimension and whatever numbers are drawn, random_MPS returns a chain with one site per operator, the physical dimensions of the operators, bonds of size one at both ends and of the size asked for elsewhere, and the numbers drawn as entries; so do the overloads with dimensions. dmrg(hamiltonian, options), which starts from such a chain, is not canonical and has any norm, returns a normalized chain with these physical dimensions, in canonical form around the site that it reports, and the energy of that chain.", "quantifier": "for all chains of operators, dimensions, bond dimensions, numbers drawn and numbers of sweeps", "why_tests_cant": "The starting chain is random and not canonical: a test sees the chains of one seed, and the rounding of an energy that nearly converged hides an energy computed in a wrong gauge.", "anchors": ["sources/MPT.cpp:372-386", "sources/MPT.cpp:463-478", "sources/dmrg.cpp:120-126", "sources/dmrg.cpp:370-409"]}
{"id": "C86", "title": "Operations change their object only, and copies of it", "statement": "Block tensors hold counted handles to tensors, so copies share memory and permute returns views. add, mul, permute, copies and new tensors leave the elements of every variable as they were and give the tensor of the value-level operation; add_, += and -=, mul_ change the elements of their object, and of other variables only in blocks they share with it; add and add_ with a temporary or moved argument change nothing that the caller can still see besides the object of add_.", "quantifier": "for all programs made of these operations on any number of variables, all states they reach, all block tensors, scalars and quantities", "why_tests_cant": "The rvalue overloads decide by a reference count whether to write in place; views have counts of their own, and which blocks are written depends on the blocks of both tensors and on every handle in the program. The tests compare the result and look neither at the object of a const method nor at other variables.", "anchors": ["sources/btensor.cpp:2317-2327", "sources/btensor.cpp:2666-2753", "sources/btensor.cpp:1754-1798", "include/blockTensor/btensor.h:468-473", "include/blockTensor/btensor.h:613-616"]}
{"id": "C87", "title": "Comparisons with scalars and divisions by and of scalars are those of the dense tensor", "statement": "le, ge, less, greater, eq and not_equal of a block tensor with a scalar, on either side, give the block tensor whose elements say whether the relation holds; div and div_ by a scalar give the quotients; a scalar divided by a block tensor gives the quotients of its elements; anynan tells whether an element is not a number.", "quantifier": "for all valid block tensors, all scalars (not zero for division), all six relations", "why_tests_cant": "Tests compare the stored blocks of a few tensors; the elements of blocks that are not stored are zero, for which a comparison may hold, and dividing a scalar by a tensor writes to a list that has no elements.", "anchors": ["sources/btensor.cpp:911-976", "sources/btensor.cpp:3116-3127", "sources/btensor.cpp:3159-3166", "include/blockTensor/btensor.h:1397-1435"]}
{"id": "C88", "title": "DMRG on block tensors that makes its own initial state works in the requested sector", "statement": "random_bMPS(bond_dim, hamiltonian, qnum) gives a normalized chain with the physical dimensions of the operators, the total quantity qnum and bonds of at most bond_dim values; an empty chain of operators is rejected with an exception. dmrg(hamiltonian, qnum, options) started from it returns a chain of this quantity for these operators, with its energy, at most that of the initial chain.", "quantifier": "for all groups of quantities, all chains of operators that fit together, all totals, all random numbers, all options with minimum_bond at least one", "why_tests_cant": "The initial chain is random: a test sees a few draws, for one model and one sector. The physical dimensions are those of the operators inverted, the rules of the sites are reset, the number of passes depends on the operators; whether the chain is normalized depends on the bond dimension, which tests of the energy after convergence do not show.", "anchors": ["sources/dmrg.cpp:109-118", "sources/MPT.cpp:423-462", "sources/MPT.cpp:479-494", "sources/MPT.cpp:501-533", "sources/MPT.cpp:540-545"]}
{"id": "C89", "title": "A run of DMRG gives back the operators and keeps the element types", "statement": "dmrg(hamiltonian, state, options) leaves the operators as they were and the state as the run left it, and returns what the run returns, also when it throws; with hamil_gradient or state_gradient the run is traced for gradients, without them it is not.", "quantifier": "for all chains of dense or block tensors, all element types, all four settings of the gradient options, all runs", "why_tests_cant": "The guard reads the options of the first tensor and gives them to all tensors, in a destructor that also runs after an exception. Tests use tensors of one element type, without gradients, and do not look at the operators afterwards.", "anchors": ["sources/dmrg.cpp:67-107", "include/MPT.h:201-216", "include/MPT.h:257-268", "include/blockTensor/btensor.h:739-748"]}
{"id": "C90", "title": "Dense decompositions of tensors of any rank cut at any dimension", "statement": "svd(A, split) and eigh(A, split) give tensors of orthonormal columns and values whose product is A; eigh reads the lower half only and rejects cuts into groups of different sizes; the truncated versions keep between min_size and max_size values, the ones that matter most, and discard no more than tol.", "quantifier": "every tensor, every split, every tolerance and limits", "why_tests_cant": "The product and the orthonormality are equations between all entries for all shapes and cuts; tests compare a few random tensors.", "anchors": ["sources/LinearAlgebra.cpp: svd (105-132), eigh (135-160), truncate (77-103)", "include/LinearAlgebra.h: svd, eigh"]}
{"id": "C91", "title": "The matrices a block tensor is cut into fill their vector exactly", "statement": "Before a decomposition (svd, eigh) the blocks of a tensor are sorted by the quantities of the last two dimensions and cut into ranges, one dense matrix for each. The vector of matrices is made by a first loop that counts the ranges by comparing neighbours and filled by a second one that compares with the first block of the range. The second loop ends, never writes beyond the vector and leaves no place unwritten; each matrix holds exactly the stored blocks that share all indices but the last two and the quantities of the last two sections, and no two matrices belong together.", "quantifier": "every valid block tensor of rank two and up, any group of quantities, any number and pattern of stored blocks", "why_tests_cant": "the tests decompose a few tensors of rank two; a count that is too small writes beyond a vector, which a test may not notice, and one that is too large leaves an empty matrix", "anchors": ["sources/btensor_linalg.cpp:30-67", "sources/btensor_linalg.cpp:164-185", "sources/btensor_linalg.cpp:199-255"]}
{"id": "C92", "title": "The matrices a block tensor is cut into hold the elements of its blocks", "statement": "Before a decomposition the blocks of a tensor are copied into dense matrices; each matrix holds the elements of its blocks and zeros elsewhere, whatever the element type of the tensor.", "quantifier": "every valid block tensor with two dimensions, every element type of the tensor and every default element type of torch", "why_tests_cant": "the tests set the default type to double and decompose tensors of doubles; the matrices are made with the default type of torch, which differs from that of the tensor only in programs that use complex tensors or another default", "anchors": ["sources/btensor_linalg.cpp:80-150", "sources/btensor_linalg.cpp:134", "include/LinearAlgebra.h:121"]}
