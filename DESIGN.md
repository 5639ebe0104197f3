# Formal model of QuantiT: design and trusted base

Source under study: `/repo` (AlexandreFoley/QuantiT, C++). Nothing is built or run; the model is a
hand translation of the source, function by function, each definition citing file and lines.

## Layout

* `rocq/theories/X.v` model of one part of the code, no proofs; `SpecX.v` the independent specification;
  `XProofs.v`, `XThms.v` lemmas.
* `rocq/theories/Prop_*.v` hold only the property theorems, closed by `exact`, each with `Print Assumptions`
  and an `Example` that meets the hypotheses.
* `MANIFEST.json` maps properties to theorem names; `seeded/LOG.jsonl` records wrong-program experiments.

## Modelling conventions

* **Outcomes.** A C++ call is `Ok v | Throw | UB` (`result`). Dereferencing `end()`, out-of-range `operator[]`
  and reads of moved-from objects are `UB`; exceptions are `Throw` with a tag.
* **Integers.** Machine widths are written out where the property is about them (`uint16_t`/`int16_t` of the
  conserved quantities, `size_t` in truncation). Dimensions, indices, section counts are `nat` (no overflow).
* **Scalars.** Tensor elements live in an abstract commutative ring with conjugation (record `ring`), so floating
  point rounding, NaN and dtype are *not* modelled. Where an order is needed (truncation) values are `Z` or an
  abstract ordered type.
* **Dense tensors.** `torch::Tensor` is a shape plus a function from multi-indices to scalars, compared on the
  in-range indices. The torch calls used (`zeros`, `add`, `mul`, `mm`, `permute`, `reshape`, slicing) are given by
  their documented meaning; this is part of the trusted base. Storage sharing (views aliasing) is modelled only
  where a property is about it.
* **Conserved quantities.** Tensor code is polymorphic in an abelian group record; `Quantity` proves which of the
  concrete C++ types are instances.
* **Block list.** The sorted vector of `flat_map` is a list of pairs; `std::lower_bound`, `std::sort` etc. are
  implemented (insertion sort / linear search) and are equal to any correct implementation when keys are distinct.
* **btensor metadata** keeps the packed vectors of the code (`sections_by_dim`, `sections_sizes`, `c_vals`).

## Per-property plan

| id | what is modelled, how it is proved |
|----|------|
| C01 | `C::op`, `inverse_` on `Z` with mod 2^16; group laws by arithmetic for N<=32768; counter-example for larger N |
| C02 | constructor expression with truncated `%`; residue theorem off the negative multiples; counter-example |
| C03 | `Z::op` with int16 wrap; group laws mod 2^16; fold equals integer sum under range hypothesis |
| C04 | lists of factors, componentwise; lexicographic order; induction on the factor list |
| C05 | binary search insert/lookup on a list; refinement to a function `key -> option val` over operation histories |
| C06 | `erase(key)` with the inverted test as written; counter-example + theorem on present keys |
| C07 | `use_hint` window; counter-example; theorem for end hint and for hints not below the key |
| C08 | the backward merge loop as written, exact characterisation by induction; counter-example to the claim |
| C09 | odometer step; orbit = enumeration in mixed radix order |
| C10 | mixed radix flatten/unflatten; inverse and monotone |
| C11 | scan of section sizes; existence and uniqueness |
| C12 | `check_tensor` as boolean function; reflection to an independent `valid` predicate |
| C13 | `block` with lookup, rule test and insertion; preservation of `valid` |
| C14 | fold of slice assignments; equals the element function |
| C15 | `from_basic_impl` loop over the odometer; composition with C14 |
| C16 | `factory_wrap` loop; from C09 |
| C17 | packed permutation of metadata, index and block permutation, resort; dense statement by C14 |
| C18/C60 | whole tensordot: shape, permuted block lists, grouping loop, matching merge, accumulation; dense statement by sum re-indexing |
| C19/C20 | `add` through the merge of C08; dense statement; counter-example for alpha <> 1 |
| C21 | metadata comparison; counter-example; theorem for equal ranks and section counts |
| C23/C61 | `reshape` and `reshape_as` metadata, block keys and block reshape; a re-keyed block list lemma; round trip by row-major ranks (C10). Rank zero is undefined behaviour |
| C24-C26/C54 | `shape_from`, `to_block_basis`, view filter loop, the write-back loop (reading past the block index of the value is UB), `squeeze_`; counter-examples for a trailing fixed index; theorems otherwise. Views that keep the rank are in `ViewKeep` (spec `SpecViewKeep`). That the view shares storage with its source is not modelled |
| C27-C29 | metadata maps |
| C30 | merge comparison of block lists |
| C31 | `&=` fold as written; counter-example; theorem for single block |
| C32 | search for first non-zero block and check of the rest |
| C33 | counting loop |
| C34 | `Bmm`: the check, the shape of the result, sorting by columns, the merge loops over batches, rows and columns with the accumulation of products; loop invariants over sorted suffixes (`BmmLoops`); matrices through `reshape_as` and `squeeze_`. `baddbmm_` by its documented meaning. Spec `SpecBmm`: dense batched product |
| C36 | `BSvd`: stable sort of the blocks by quantity, compaction into one matrix per pair of quantities (slices found or appended), shapes of the factors, assignment of the rows of the dense factors; `svd(tensor, split)` through `reshape`, `shape_from`, `reshape_as`. `torch::svd` is a function argument, assumed to decompose the matrices of the sectors (and to be isometric, for the second half). The first loop of `svd`, which stores undefined blocks to be assigned later, is left out. Spec `SpecSvd`: dense factorization and orthonormal columns, real values, the bound on the sections of the new dimension, and values of each section taken from a sector that holds a stored block |
| C37/C38 | loops as written with `size_t` conversions; invariants |
| C39 | argument order of the overloads |
| C40 | `BTrunc`: all values sorted by their meaning, the position from `compute_last_index` (C37), the lowered bound (`lower` is an argument), the loop over the blocks of the values from last to first, `remove_unit_blocks` with its two positions and swaps, `trunc_unit_block`. Order and weights are arguments. Spec `SpecBTrunc`: what each section keeps, sections emptied, the product with dropped values replaced by zero. Counter-examples: blocks left behind or out of order, ties above the maximum, zero values below the minimum, eigenvalue overload reading a moved tensor. Conversions to double and the element types of `lower_bound` are left out |
| C41 | `BEigh`: `eigh` on the compaction of C36, its shapes (with the shift of the rule by the first section's quantity), the first loop kept as the check that every block may be stored, assignment of values and rows; `eigh(tensor, split)`; the truncated form on C40's `truncate`. `torch::linalg::eigh` is a function argument, assumed to decompose the Hermitian square sectors. Spec `SpecEigh`: Hermitian dense tensors, real values, orthonormal vectors, U diag(e) U^H, values of each section those of a principal submatrix, and full size when the diagonal blocks are stored. Counter-examples for each missing condition |
| C42/C43/C59 | the driver over arbitrary sites, environments and local updates; phase argument for the positions, invariant for the environment vector and the gauge |
| C46/C51 | `Chain`: the C++ templates as functions of the tensor operations; generic proof over any operations that represent the dense ones (`ChainThms`), instantiated for torch tensors (with size-1 broadcasting in `tensordot`) and block tensors (`ChainInst`); spec: sums over configurations of products of bond sums |
| C46 (default edges)/C63/C64/C65 | `Edges`: the overloads that build the edges. `slack` entries past the end of a vector may be written (0 in the language); `last_first` is the order in which arguments are evaluated. Spec `SpecEdges`: sums over common end values. Block edges: rules left by `shape_from`, then `eye_like`/`ones_like`; chains via C46 with given edges |
| C22/C35/C66/C67 | `Bcast`: `shape_compute`, masks, `match_index`, `out_index`, the loop over pairs of blocks, operations in and out of place. Torch broadcasting by its documented meaning (`t_zip`). Spec `SpecBcast`: dimensions padded in front with size one; block of each operand read for a block of the result; dense statement via `t_zip` of the dense forms. Counter-examples for single sections, missing blocks, ranks, sizes |
| C44 | MoveOc.v: both `move_oc`, built on the modelled decompositions, `torch::svd` an argument; the amplitudes of all configurations are kept (Prop_Move.v), the gauge follows when the dense factors are isometries; zero block states refuted |
| C45 | `all_of` scan with the previous size carried along, `ChainCheck`; dense sizes and block quantities separately; low rank is an out-of-bounds read |
| C47 | `Rand`: the starting point and the greedy passes with an arbitrary stream of numbers as random source. Spec `SpecRand`: a configuration is one quantity per site with the given total. Sound for every group and source; complete for integers when all sites have one common step (one pass is enough); refuted otherwise for any number of passes, for identical sites too; a site without quantities is UB. |
| C48 | `RandChain`: strings, accumulated quantities, `make_right_side`, one site, the last view. Random values, division and square root are arbitrary functions; `check_ranks` in debug mode is left out. Spec `SpecRandChain`: valid chain between trivial bonds with given bond sizes and total, blocks stored along a configuration of the given total; amplitudes via C68. Refuted without bond values, without sites and for physical dimensions with a rule. |
| C68 | Amplitudes as sums over bond values (`SpecChain`), quantities of single elements (`SpecSector`); induction over the chain (`SectorThms`). |
| C49/C62 | `pauli`, `fermions`, the local tensors by their `index_put_` calls; automaton argument by induction on length; products of parity strings |
| C50/C69 | `ModelsBlock`: `to_bMPO` with the significance test and `allclose` as arbitrary functions, block `Heisenberg` and `Hubbard` before `coalesce`, at least two sites. Spec `SpecModelsBlock`: quantity of a single element, block chain denoting a dense chain. Quantity arithmetic of the non-zero entries gives the exact condition; examples over the rationals (`RingQc`) with the thresholds of the code. `ModelsCoal` adds the final `coalesce`: the automaton chains reach every quantity of their bonds, so C72 applies and the compressed chain is the Hamiltonian of C49 (`C50_conserving_partial`, `C69_conserving_partial`) |
| C72 | `Coalesce`: `bMPO::coalesce` with the operations it calls as arguments, instantiated with the models of `svd` with a tolerance, `mul_`, `tensordot`, `conj` and `permute`. Spec `SpecCoalesce`: equality of all matrix elements (`op_amp` of `SpecChain`), which quantities of a bond occur in the operator on its left, and what compressed bonds are. `CoalesceProofs`: one turn; `CoalesceThms`: the loop, by induction on the sites behind. Partial: quantities that do not occur (sectors of zeros) are excluded |
| C70/C71 | `OpsBlock`: `fermions(shape)` and `pauli(shape)` from the models of `find_selection_rule`, `set_selection_rule_` and `from_basic`. Spec `SpecOps`: definite quantity of an operator, operators on a space and its dual, eigenvectors and what "lowers" means. The documented lowering operator is refuted, its adjoint proved to lower |
| C73 | `Eig2`: `eig2x2Mat` on numbers with infinity and nan as outcomes of divisions. `Num`: record of the scalars (field, conjugation, order, square roots of non-negative numbers); `NumR` gives the real and complex numbers as instances. Spec `SpecEig2`: the quadratic form, eigen equations and minimality over all vectors; algebra in `Eig2Proofs` |
| C74 | `Lanczos`: `one_step_lanczos` and `two_sites_update` as functions of the tensor operations (the C++ functions are templates), instantiated with dense tensors. Spec `SpecLanczos`: matrix of the effective Hamiltonian by its sum over the bonds of the Hamiltonian, scalar products, lowest energy among the combinations of two vectors. `LanczosVec`: reduction to two vectors and C73; `LanczosProofs`: evaluation of the contractions; `LanczosExact`: for which states the claim holds, refutation for small residuals |
| C75 | `SiteUpdate`: the numerical content of `dmrg_2sites_update` (sources/dmrg.cpp:182-201) as a function of the tensor operations, with the truncated dense `svd` and the normalization of the singular values, instantiated with dense tensors; division by zero is `UB` (a result that is not modelled). Spec `SpecSiteUpdate`: norm of a chain by its amplitudes, Hermitian chains of operators by their matrix elements, matrix of the operator between the states that share all sites but two, gauges from `SpecMove`. | partial: `C75_update_partial` by `ChainNorm` (isometries keep norms), `ChainEnergy` (energy of the chain = energy of the pair, Hermitian chain gives Hermitian matrix), `SiteUpdateProofs`, `SiteUpdateThms`; `C75_update_refuted` for eigenvectors of non-negative energy; `SiteUpdateExact`: these are all the pairs that fail (`C75_exact`); `SiteUpdateTrunc`: overlap of the vector found with the pair left by the truncation (`C75_truncated`), `BellEx`: the energy reported is not that of the truncated chain (`C75_truncated_refuted`); `SmallEx`: a residual below eps that is not zero, where the energy rises (`C75_small_refuted`) |
| C76 | `DmrgRun`: the dense `dmrg` (sources/dmrg.cpp:101-107, 127-207, 277-334, 370-409) with the numbers: environments, loops, convergence, norm test, final move; same loops as `Dmrg` (C43) but with functions that may fail, instantiated with `SiteUpdate`, `Edges`, `MoveOc`. Not modelled: logger, gradient guard, rounding. Spec `SpecDmrgRun`: states reached after any number of updates, energy of a chain, canonical form, full bonds. | partial: `DmrgRunProofs` (one update keeps the invariant: environments are those of the current chain), `DmrgRunThms` (positions, all updates), `DmrgRunMain` (start, end); chains that are not canonical: after enough updates every site has been made an isometry (`DmrgFree`: one update; `DmrgFreeThms`: which positions are visited); example run in `DmrgRunEx`; `C76_no_iteration_refuted`; which runs return: `DmrgRunExact` from `SiteUpdateExact`, spec `SpecDmrgStuck`, runs in `DmrgRunExactEx`; `BellRun`: runs that discard singular values return an energy that is not that of the chain (`C76_truncated_refuted`) |
| C77 | `Gdot`: sources/tensorgdot.cpp, all of it: `compute_shape` with its broadcasting by sums, `tensorgdot`, `tensorgdot_out`, both `tensorgdot_`; the writing variants act on a storage with strides, and `reshape` is a view exactly when strides exist for it (documentation of torch), else a copy. Not modelled: negative dimensions, narrowing of sizes to `int`, operands sharing storage with the output, dtypes. Spec `SpecGdot`: combination with `torch::tensordot` (`t_tdot`), places in a storage. | partial: `GdotProofs` (loop over contracted pairs, matrix product = contraction), `GdotThms` (storage, all variants); value proved with the coefficients exchanged with respect to the documentation (`C77_documented_refuted`); outputs that are not matrix-like lose the result (`C77_inplace_lost`, `C77_inplace_refuted`); `C77_out_shape_refuted`, `C77_count_refuted` |
| C78 | `MPS`/`bMPS` as containers: list of tensors + optional centre (`None` = `bMPS(begin, end)` leaves it uninitialised), programs over several variables (`MpsBox.v`) | exact step theorem (which operations keep every centre on its chain), runs by induction, values of copies/assignments/exchanges/conversions; refuted for removals, moved-from variables and unchecked constructors, each followed by an out-of-range read in `move_oc` |
| C79 | `BLanczos`: the same functions `one_step_lanczos`/`two_sites_update` (`Lanczos`) and `hamil2site_times_state` (`Chain`), instantiated with the block operations: contraction (`Tensordot`), broadcast (`Bcast`), addition with its absent blocks (`BTensorArith`), `sqrt`/`abs` block by block, `item`, comparisons, `isnan`/`any`, and an `eig2x2Mat` for scalars that may have no block (values or nan). Spec `SpecBLanczos`: dimensions that can be contracted, conserved quantities, which blocks reach the state, equality of outcomes | simulation by the dense functions operation by operation (`BLanczosThms.sim_update`), then C74; refuted by three sets of blocks (`BLanczosEx`, `BLanczosMiss`, `BLanczosMain`) |
| C80 | `Tensordot`; spec `tdot_blocks` in `SpecTensordot` | follow the two loops over sorted blocks (`TensordotThms.tensordot_full`); used by C79 |
| C81 | `Erased`: heap of objects owned by `unique_ptr`s, variables, references; the operations of `any_quantity`, `any_quantity_ref`, `any_quantity_cref` as steps with outcomes done / thrown / undefined. A family of quantity types is a parameter | independent relation on values (`SpecErased.vruns`) shown equivalent to runs; ownership invariant (every live cell has one owner); references by an invariant on the cell they name. `…_refuted`: swaps and assignments from references, documented change of type, moved-from variables |
| C82 | `QVec`: `any_quantity_vector` as an optional list of quantities of one type, its operations as steps; the vectors inside default and moved-from block tensors and inside vectors of tensors | element by element (`SpecQVec.elem_after`), `permute` by following the copied sections; null vectors refuted |
| C83 | `BSiteUpdate.b_site_update`: the dense model of the update of a pair with the block contraction, the block SVD with truncation, `b_unit_norm`; local update from C72 | `BSiteUpdateThms.bsite_ok` for the pair, `BSiteChain.bchain_ok` for the chain: norm and energy of the dense forms, isometry on the values of the bond in use (`SpecBSiteUpdate`) |
| C84 | `BDmrgRun.b_dmrg`: the loops of `DmrgRun` (driver, sweeps, updates, environments) with the block update of C83, block environments and the convergence test on block scalars | invariant `BRunProofs.binv` (edges, physical legs, rules, environments) kept by every update that returns (`BRunThms.conserved`); with `BRunEnergy.einv` (isometries, norm) and C83 at each step, the run returns and energies fall (`BRunEnergy.run_energy`) |
| C85 | `RandDmrg`: `random_MPS_impl`, the overloads of `random_MPS` for dense tensors, `dmrg(hamiltonian, options)`; the numbers of `torch::rand` are any function of site and position (the range [0,1) is not used). Spec `SpecRandDmrg`: operators with given dimensions, shapes of the sites | partial: chains by `RandDmrgThms`, runs by C76 for chains that are not canonical; `RandDmrgEx` (three sites, refuted) and `RandDmrgEx2` (example) follow a run with `EigenUpdate`/`EigenStep`: what an update does to an eigenvector that is not normalized |
| C86 | `Share`: memories, windows on them and handles; `get_refcount`; `add`, `add_` for lvalues and rvalues (with `sub`, `+=`, `-=`), `mul`/`mul_` and the other element functions, `permute` as views, copies, programs. Spec `SpecShare`: sharing of memory, well formed states, what a step may write to | partial: `ShareProofs` (one merge: `run_ok`), `ShareThms`/`ShareOps` (operations, programs), `ShareEx` (examples, refutations: const `add(&&)`, `D -= B.permute()`) |
| C87 | `ScalarOps`: comparisons with a scalar (both sides), `div(Scalar)`, `div_(Scalar)`, `operator/(Scalar, btensor)`, `anynan`. Spec `SpecScalarOps`: the six relations, truth values | partial: `ScalarOpsThms` (from the element-wise maps of C57), `ScalarOpsEx` (rational scalars; refutations: comparisons that hold of zero, scalar divided by tensor) |
| C88 | `RandBDmrg`: `phys_of`, `n_pass`, `random_bMPS_list`, `random_bMPS_hamil`, `b_dmrg_random` (on top of `RandChain` and `BDmrgRun`). Spec `SpecRandBDmrg`: operators that fit together and their physical dimensions | partial: `RandBDmrgThms` (chain and sector, from C47/C48 and C84), `RandPasses` (the number of passes is that of distinct physical dimensions), `RandUnit` (a site drawn with bonds of one value is a unit vector and an isometry), `RandBEnergy` (energy for `minimum_bond` 1), `RandBDmrgEx` (two spins, arbitrary draws; refutation of the norm for two bond values); the empty chain of operators is UB |
| C89 | `Guard`: `dmrg_gradient_guard`, `to` and `to_` of chains, `to` of block tensors, `options`; element types with an arbitrary conversion; the run is an arbitrary function. Spec `SpecGuard`: one element type, declared type of a block tensor | partial: `GuardThms` (exact conditions; gradient options always throw), refutations by evaluation |
| C90 | dense `svd(A, split)` and `eigh(A, split)` with and without truncation (DenseEigh.v, MoveOc.v, SiteUpdate.v); `torch::svd` and `torch::linalg::eigh` are arguments assumed right for the matrix at hand | reshapes keep the row-major position, so the matrix factorization is that of the tensor for every rank and cut; the truncated `eigh` counts by the entries of the eigenvectors and keeps the lowest values, refuted with diagonals of two numbers (DenseEighThms.v, DenseEighEx.v) |
| C91 | `Compact`: `compact_tensor_count` (sources/btensor_linalg.cpp:164-185), the loop of `compact_dense` (232-251) with explicit positions of `it1`, `it2`, `out_it` and a vector whose places may be unwritten (a write beyond it is `UB`), `equal_index`, `equal_c_vals` and `reorder_by_cvals` for any rank. Spec `SpecCompact`: cutting a list into ranges of like elements; group of a block by its indices and the quantities of its legs. | proved: `CompactProofs` (count = number of ranges, the loop fills the vector), `CompactThms` (stable sorting by the quantities alone is sorting by quantities and indices because the stored order is lexicographic); `C91_matrices` links the loop to the simplified `compact_dense` of `BSvd` |
| C92 | `CompactType`: `compact_dense_single` and `compact_dense` (sources/btensor_linalg.cpp:80-150, 199-255) with the element type of `torch::zeros(tensor_size)` (line 134): an argument `store` says what the default type keeps of a number. Two dimensions. Spec `SpecCompactType`: same shapes, elements and slices. | partial: `C92_kept_partial` by `CompactTypeProofs` and `C92_elements_partial` by `CompactTypeMain` (elements of the blocks at their slices) when the default type holds every stored element; `C92_complex_refuted`: the block i gives a matrix of zeros |
| C52/C53 | direct (C52 in `ChainCheck`, 64-bit overflow is undefined behaviour) |
| C57/C58 | block-wise maps; `full_like` followed by `add_` |

## Trusted base

Coq 8.16.1 kernel; the `Print Assumptions` output below every property theorem (target: closed under the global
context; `coqchk` also names seven items of the standard library module `Coq.ssr.ssrunder`, loaded but not used); the examples over the real and complex numbers (`C73_ex` and later ones, no theorem) use the axioms of the standard library's reals: `ClassicalDedekindReals.sig_not_dec`, `ClassicalDedekindReals.sig_forall_dec`, `FunctionalExtensionality.functional_extensionality_dep` (`coqchk` also lists `Classical_Prop.classic` and the sealed definitions of `Coq.Reals.Rdefinitions`, loaded with them); the reading of the C++ source; the documented meaning of the torch and std calls listed above.

## Wrong-program experiments

`seeded/LOG.jsonl`: each line is one textual edit of a model definition in a scratch copy, rebuilt. A proof that no longer
goes through is replaced there by `Admitted` so that the build continues; `lemmas_failed` lists those proofs and
`theorems_failed` the property theorems (and examples) that failed or rest on one of them. A failed proof script shows that
the theorem is sensitive to the edit, not by itself that the statement became false. Edits that do not typecheck downstream
(they changed the arguments of a definition) give no verdict and are rewritten before being logged.

## Not modelled

Python bindings, formatting, logging, autograd flags and element types (but for C89), devices, floating point rounding, exceptions thrown by
allocation, numerical accuracy of LAPACK, wall-clock/performance.
