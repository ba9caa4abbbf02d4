# Formal model of google/TensorNetwork in Rocq (Coq 8.16.1)

Everything lives in `rocq/theories`. The source in `/repo` is python and was only read, never run.
The only tie between code and model is the reading of the code; each model definition cites the file
and lines it models and says where it simplifies.

## 1. Trusted base

* the Coq 8.16.1 kernel (and `vm_compute` for the examples and refutation witnesses);
* what `Print Assumptions` lists below each property theorem (files `P_*.v`). See section 5;
* the reading of the python/numpy semantics recorded in the comments of the model files;
* oracles: matrix factorisations (SVD, QR, RQ), path solvers of `opt_einsum` and iteration orders of python sets
  are universally quantified arguments of the theorems; the contract assumed of each is a visible hypothesis.

Not modelled at all: floating point rounding (tensor entries are elements of an arbitrary commutative semiring,
optionally with a conjugation; order-dependent statements such as SVD truncation use Coq's real numbers), dtypes and devices,
jit compilation, memory layout and laziness inside numpy/jax/torch/tensorflow, ARPACK, warnings, string formatting,
the text of error messages.

## 2. Common layers

| file | content |
|------|---------|
| `Prelude.v`, `Algebra.v` | list lemmas; commutative semirings as a record; finite sums and products over lists |
| `Tensor.v` / `TensorFacts.v` | dense arrays = shape + function of a multi-index; row-major ravel/unravel; numpy `transpose`, `reshape`, `tensordot`, `trace`, `matmul`, `outer` |
| `Einsum.v` | *specification*: value of a labelled network = sum over the summed labels of the product of entries |
| `EinsumFacts.v` | order independence of sums, contraction of a pair, trace, outer product, fusing and splitting of labels |
| `Graph*.v` | *model* of `Node`/`Edge` objects as a heap; every API function as a function `heap -> args -> result heap` |
| `Ncon*.v` | *model* of `ncon` |
| `Res.v` | result type with exceptions and fuel |
| `Charge.v`, `BlockSparse.v` | *model* of charges and block-sparse tensors; `Charge*.v`, `Block*.v`, `Bst*.v` proofs, `BlockSpec.v`/`BstSpec.v` specifications |
| `Backends.v` | *model* of backend routines (tensordot, QR/RQ/SVD of tensors, pivot); `BackendSpec.v` specification, `Backend*.v`, `DecompFacts.v` proofs |
| `SvdTrunc.v` | *model* of the singular value truncation over the reals; `SvdTruncFacts.v` proofs |
| `SplitNode.v` | *model* of `split_node`, `split_node_qr`, `split_node_rq`, `split_node_full_svd`; `SplitSpec.v` specification, `SplitNodeFacts.v`, `SplitFullFacts.v` proofs |
| `GraphNames.v`, `GraphTotal*.v` | the graph calls succeed: axis names are kept, every step of a contraction, flattening or reordering finds what it needs (`P_Total.v`) |
| `PathContract.v` | *model* of the path contractors (opt_einsum algorithms are a parameter); `GraphDead.v`, `PathFacts.v` proofs |
| `BlockCache.v` | *model* of the block cache and its string keys; `BlockCacheFacts.v` proofs |
| `Context.v` | *model* of the default-backend and node-collection stacks (`backend_contextmanager.py`, `ops.py`); `ContextSpec.v` lexical scoping as specification, `ContextFacts.v` proofs |
| `Linalg.v` | *model* of numpy reshape/transpose, `linalg/operations.py` kron, `linalg/node_linalg.py` kron; `LinalgSpec.v` specification, `LinalgFacts.v`, `LinalgNode.v` proofs |
| `Mpo.v` | *model* of `FiniteMPO`, `FiniteXXZ`, `FiniteTFI`; `MpoSpec.v` Hamiltonians as sums of products of spin operators, `MpoFacts.v`, `MpoMain.v` proofs |
| `MpoFermion.v` | *model* of `FiniteFreeFermion2D`; `MpoFermionSpec.v` creation and annihilation operators on occupation lists and the lattice Hamiltonian, `MpoFermionFacts.v` proofs |
| `Keras.v` | *model* of the dense layers of `tn_keras`; `KerasSpec.v` layers and weight matrices, `KerasCall.v` rows, activation and contractions over given axes, `KerasFacts.v`, `KerasEntangler.v`, `KerasMain.v` proofs |
| `KerasConv.v` | *model* of `Conv2DMPO`; `KerasConvSpec.v` the kernel, `KerasConvFacts.v` proofs |
| `MpsInf.v` | *model* of `InfiniteMPS` (`unit_cell_transfer_operator`, `transfer_matrix_eigs`, `canonicalize`) and of `get_tensor`, `apply_transfer_operator` of `BaseMPS`; `eigs`, `eigh`, `inv`, `sqrt` and random vectors are parameters; the returned `lam_norm` is part of the result; `MpsInfSpec.v` cells, rings, canonical forms and contracts; other `MpsInf*.v` proofs and an example over the reals. Not modelled: `random`, precision and iteration arguments |
| `Fft.v` | *model* of `add_fft` of `examples/fft` with its inner functions, on the heap of `Graph.v`; 1/sqrt(2) and exp(-i pi/2^p) are parameters of the ring. `Stitch.v` a new node connected to loose ends of a network; `FftSpec.v` the transform and the vector on loose ends; `FftStitch.v`, `FftFacts.v`, `FftMain.v` proofs. Not modelled: node names |
| `Sat.v` | *model* of `sat_tn` and `sat_count_tn` of `examples/sat`, on the heap of `Graph.v`. `SatSpec.v` satisfying assignments and linked variables; `SatFacts.v`, `SatMain.v`, `SatCount.v` proofs. Simplified: int32 entries are elements of a semiring |
| `Wave.v` | *model* of `inner`, `apply_op`, `expval`, `apply_circuit`, `evolve_trotter` and `trotter_prepare_gates` of `examples/wavefunctions`, on the heap of `Graph.v`. `WaveSpec.v` operators on some sites, circuits and Trotter steps; `WaveFacts.v`, `WaveInv.v`, `WaveMain.v`, `WaveExp.v`, `WaveTrotter.v` proofs. Not modelled: `evolve_trotter_defun`, callbacks, data types |
| `Topo.v` | *model* of `from_topology` (`utils.py`), on the heap of `Graph.v`. `TopoSpec.v` strings of parts and the topologies that name a network; `TopoFacts.v` proofs, with the renaming of labels in Einstein sums |
| `MpsCheck.v` | *model* of `check_orthonormality` and both `check_canonical`, on the states of `MpsInf.v`. `MpsCheckSpec.v` distances from isometry and canonical form; `MpsCheckFacts.v` proofs |
| `IndexOps.v` | *model* of `block_sparse/index.py` and of `BaseCharge.__matmul__`. `IndexSpec.v` outer products of charges; `IndexFacts.v` proofs |
| `Graphviz.v` | *model* of `visualization/graphviz.py`. `GraphvizSpec.v` drawings and degrees; `GraphvizFacts.v` proofs |
| `Mera.v` | *model* of `update_iso`, `update_dis` (given the environment) and `shift_ham` of `examples/simple_mera`. `MeraSpec.v` isometries and the linear objective; `MeraFacts.v` proofs |
| `TensorExpr.v` | *model* of `Tensor.__call__`, `NconBuilder.__matmul__`, `finalize`, `Tensor.conj`, `H`, `hconj`. `TensorExprSpec.v` expressions with brackets and their factors; `TensorExprFacts.v` proofs |
| `XxzSym.v` | *model* of `blocksparse_XXZ_mpo` of `examples/dmrg/symmetric_dmrg.py`, on top of `Mpo.v` and `BlockSparse.v`. `XxzSymFacts.v` proofs |
| `Ising.v` | *model* of `ising_hamiltonian` (wavefunctions example) and `ham_ising` (MERA example). `IsingSpec.v` the Ising model on wavefunctions; `IsingFacts.v` proofs |
| `MpoInf.v` | *model* of `InfiniteMPO.__init__` and `roll`. `MpoInfSpec.v` rotations and the operator on a ring; `MpoInfFacts.v` proofs |
| `SwitchBackend.v` | *model* of `switch_backend`. `SwitchBackendFacts.v` proofs |
| `Strides.v` | *model* of `_get_strides` and of `fuse_stride_arrays` with its exceptions. `StridesFacts.v` proofs |
| `KrylovCheck.v` | *model* of `krylov_error_checks`. Proofs in `P_KrylovCheck.v` |
| `Collapse.v` | *model* of `get_dtype`, `collapse` and `expand` on the bytes of numbers. `CollapseFacts.v` proofs |
| `NodeQuery.v` | *model* of `get_axis_number`, `get_dimension`, `get_edge` and the queries of dangling edges. Proofs in `P_NodeQuery.v` |
| `SymSvd.v`, `SymSvdTensor.v` | *model* of the symmetric `svd` (truncation across blocks over the reals; numpy's svd of a block is a parameter); `SymSvdSpec.v` specification, `SymSvd*.v` proofs |
| `Mps.v` | *model* of `FiniteMPS`/`BaseMPS` (`position`, `canonicalize`, gates, environments, measurements); matrix factorisations, norm and division are parameters; `MpsSpec.v` amplitudes and isometries as specification, `Mps*.v` proofs, `MpsExamples.v` rational factorisations that meet the contracts |
| `Dmrg.v` | *model* of `BaseDMRG`/`FiniteDMRG` with the eigensolver as a parameter; `DmrgSpec.v` environments and matrix elements as sums over configurations, `Dmrg*.v` proofs |
| `CopyTensor.v` | *model* of `CopyNode`, `contract_copy_node` and the bucket contractor on the heap of `Graph.v`; `CopyTensorSpec.v` delta tensors, heaps without some nodes; `CopyTensor*.v` proofs |
| `PathSolve.v`, `PathSolveNcon.v` | *model* of the contraction-order solvers (`pathsolvers.py`) and of `ncon_to_adj`, `ord_to_ncon`, `ncon_solver` (`nconinterface.py`); numbers are elements of any ordered group with the logarithm of a sum, `np.argsort` is any sorting function; `PathSolveSpec.v` orders, groups and costs, `PathSolveLabels.v` labelled networks; `PathSolveNum.v` real logarithms and rational dimensions; other `PathSolve*.v` proofs. Not modelled: `ncon_cost_check`, rounding of floats |
| `Serial.v` | *model* of saving and loading (`nodes_to_json`, `nodes_from_json`, `save_nodes`, `load_nodes`, `_save_node`, `_load_node`, `_save_edge`, `_load_edge`, `to_serial_dict`, `from_serial_dict`) on a heap of named nodes and edges; a document is the dictionary given to `json.dumps`, a file its groups and datasets; the text of a tensor, the order of sets and the order of a group's keys are parameters; `SerialSpec.v` sound networks and copies; `SerialExamples.v` deciders for examples; other `Serial*.v` proofs. Not modelled: JSON text, HDF5 bytes, `shape`, `type` and `dtype` conversions |
| `Quantum.v` | *model* of operators given by networks (`quantum.py`) on the heap of `Graph.v`: constructor and checks, `adjoint`, `@`, `tensor_product`, `*`, `partial_trace`, `trace`, `norm`, `identity`, `from_tensor`, `projector`, `reduced_density`; one record for the four classes; which nodes are CopyNodes is part of the operator; `QuantumSpec.v` operators and their entries; other `Quantum*.v` proofs. Not modelled: negative subsystem indices, `from_local_tensor`, class dispatch, rollback (an exception of `CopyNode.copy` is raised before any copy is made) |
| `QuantumElim.v` | *model* of `eliminate_identities`, `QuOperator.contract` and `QuOperator.eval` (`quantum.py` 107-143, 428-492), the contractor being `base` of `PathContract.v` with any algorithm; a missing and an empty `final_edge_order` are not distinguished (nor does the code); `QuantumElimSpec.v` specification; `QuantumElimStep/Geo/Loop/Main.v` proofs; `GraphLoose.v` (dangling edges never gain a second end in a contraction) and `GraphTidy.v` (the node made by a contraction has distinct names) are general facts used there |
| `Krylov.v` | *model* of `eigsh_lanczos` (`numpy_backend.py` 415-534; the loop of `symmetric_backend.py` 370-438 is the same) over any field with conjugation, an order on differences and a partial square root, and any inner product space; `numpy.linalg.eigh` and the operator are parameters, the operator says whether it returns its argument array, a division by zero or a missing square root is the value `Undef`; rounding is not modelled; `KrylovSpec.v` Krylov spaces, factorisations, Ritz pairs, `Krylov*.v` proofs, `KrylovInst.v` rationals, reals, Gaussian rationals and coordinate spaces as instances |
| `Gmres.v` | *model* of `gmres` of the jax backend (`abstract_backend.py` 566-615, `jax_backend.py` 685-705, `jitted_functions.py` 1085-1491): Arnoldi step with threshold, Givens rotations, least-squares update, restarts, over the fields and spaces of `Krylov.v`. Simplified: the operator is a total function; `jit`, precision and the cache of operators are left out (the cache keeps the `b.shape` of the first call with the same operator); out-of-bounds array updates are dropped and reads clamped as in jax; `GmresSpec.v` minimal residual, `Gmres*.v` proofs |
| `JaxKrylov.v` | *model* of the eigensolvers of the jax backend (`jitted_functions.py` 26-54, 249-348, 405-657, 700-1083, `jax_backend.py` 234-465): iterated Gram-Schmidt, Arnoldi and Lanczos factorisations, shifted QR, sorting, the two restarted methods, over the fields and spaces of `Krylov.v`. Simplified: `qr`, `eig`, `eigh` are oracles; no jit, dtypes, caches, rounding; division by 0 is `Undef`; `r_tie` and the final carry are added to the result. |
| `JaxLanczos.v` | *model* of `jax_lanczos` (`jitted_functions.py` 60-236) and `JaxBackend.eigsh_lanczos` (`jax_backend.py` 463-578). Simplified: as for `JaxKrylov.v`; the random initial state and the type check are left out; the arrays of Krylov vectors, alphas and betas are added to the result |
| `JaxLanczosFacts.v`, `JaxLanczosMain.v`, `JaxLanczosExamples.v` | invariant of the loop (the recurrence of `KrylovLanczos.v`), the loop that expands the eigenvectors, the theorems; a real 2 x 2 eigensolver for the examples |
| `JaxKrylovSpec.v`, `JaxKrylovFacts.v`, `JaxKrylovArn.v`, `JaxKrylovShift.v`, `JaxKrylovSort.v`, `JaxKrylovMain.v`, `JaxKrylovOuter.v`, `JaxKrylovFinal.v`, `JaxKrylovTop.v`, `JaxKrylovConv.v`, `JaxKrylovExamples.v` | spec (factorisations, contracts, orders), invariants of the loops, shifted QR steps, sorting, outer loops, results, examples |
| `SymLinalg.v` | *model* of `block_sparse/linalg.py` (all but `svd`, which is `SymSvd.v`), of `qr`, `rq` of the symmetric backend (`decompositions.py` 217-248) and of its broadcasting multiplications; numpy's factorisations of one block are parameters; `trace` without the final `item()` |
| `SymLinalgSpec.v`, `SymLinalgGrade.v`, `SymLinalgMat.v`, `SymLinalgBond.v`, `SymLinalgFact.v`, `SymLinalgInv.v`, `SymLinalgDiag.v`, `SymLinalgRect.v`, `SymLinalgTensor.v`, `SymLinalgBroadcast.v` | spec (blocks of a matrix, contracts of the factorisations), matrices graded by charges, proofs |
| `SymTrace.v`, `SymTraceLoop.v`, `SymTraceMain.v`, `SymTraceDense.v` | proofs about `trace` of block-sparse tensors: one contraction with an identity, all of them, the dense trace, leg orders |
| `P_*.v` | property theorems only, each followed by `Print Assumptions` and a non-vacuity `Example` |

Exceptions are values (`Err`), partial functions return `option`/`result`. Sums are over all indices below the
dimension, no bounds on rank, dimension, number of nodes, number of steps.

## 3. Plan per property

* **C01, C03, C04, C08** heap model of `contract_between`, `contract`, `_remove_edges`, `_remove_trace_edge`, `outer_product`, `reorder_*`;
  value of a set of nodes defined in `Einsum.v`; proof: one algebraic lemma per primitive plus bookkeeping lemmas on axes.
* **C02, C23** induction over the schedule with C01/C03/C04/C08 as steps; the path is an arbitrary list.
* **C05, C06** fusing labels: sum over a product range = iterated sum; transposition and reshape lemmas.
* **C07** invariant `wf` on heaps, preserved by each operation, lifted to all histories with `fold_left`.
* **C09, C45, C48** direct lemmas about heap updates.
* **C10** copy as heap extension with a renaming; value preserved under renaming of edges.
* **C11** worklist closure computed with fuel = number of nodes; soundness and completeness against the inductive path relation.
* **C12** factorisation oracle; value lemma for inserting a bond.
* **C13** lists of reals; count of cumulative errors above a threshold.
* **C14** phases as a vector; product of scaled factors; refutation for zero or complex phases.
* **C15** tensordot by transpose/reshape/matmul; einsum-label path.
* **C16-C20** model of `ncon` as a loop on (tensors, labels); invariant: value of the labelled network.
* **C21** delta tensors: sum over delta collapses labels.
* **C22** range restriction.
* **C24-C33, C46** charges as an abelian group record with instances; data = filtered row-major enumeration; block maps.
* **C34-C38** lists of rank-3 tensors; state amplitude = matrix product; induction on the chain.
* **C39, C40, C47** operators as networks with designated edges, built on the graph layer.
* **C41** serialised form as a datatype; round trip up to renaming.
* **C42** stacks of contexts; induction over well-bracketed histories.
* **C43** path solvers: the adjacency matrix represents a partition of the tensors into groups; greedy choices are pairs in range; the search keeps a cheapest network for every partition reached, hence minimality.
* **C44** index permutation lemmas.
* **C49** loop invariant of the three-term recurrence in an abstract inner product space; Ritz pairs from the eigh contract.
* **C50** loop invariant: basis orthonormal, A V = V H, the rotations keep inner products, R triangular; least squares from orthogonality; exactness by dimension.
* **C51** invariant A V = V H + f e^T of the factorisation loops; for the shifted QR steps A V = V H + f q^T with q shifted left by one entry per step; outer loops keep 'some f makes the carry a factorisation'; eigenvectors of the masked matrix vanish outside it when the eigenvalue is not 0.
* **C52** rows and columns of a symmetric matrix are gradings (a bijection between positions and pairs charge, position in the sector); a matrix that vanishes between different charges is determined by its blocks and products, adjoints and identities are computed block by block; the data written by the routines are the blocks of a graded matrix; tensors are reshaped to matrices and back as in C33.
* **C53** contracting two elementary legs with an identity is a trace of the dense tensor; the loop is an iterated sum over labels (as in C01), positions of the remaining legs shift as the axes that are left; the grouped dense trace is the same sum split into elementary indices.
* **C54** the loop keeps the invariant `linv` of C49 (with reorthogonalisation the stored next vector is A v, and its projection is the vector of the recurrence); the matrix is that of C49 with zeros around it, so its non-zero eigenvalues have eigenvectors inside the block.
* **C55** the partial chain from each channel is an operator of the remaining sites: identity, one annihilation operator (channels 1..N1), one creation operator (N1+1..2 N1), the remaining Hamiltonian; both sides obey the same recursion on the first site, the sign of a passed particle being the factor sigma_z. Assignments override earlier ones, which matters for N1 = 1.
* **C56** rows of the input are mapped one by one; each contraction of the loop is an instance of one lemma on the entries of `tensordot`; induction over the nodes with the digits of the index as free variables. For the entangler the axes carry the number of their leg; the dimensions made by `build` fit because the second leg of node i was last touched by node i + 1 - L.
* **C57** induction over the nodes; the axes of the chain interleave the digits of both indices; the edge order is shown to be a permutation that separates them, and each `flatten_edges` moves one block of digits to the end and ravels it.
* **C58** matrix algebra up to equality of entries: with square roots `Sl`, `Sr` of the two eigenvectors and `Sl Sr = U Lam V`, the new cell is `Y M X` with `X Y = 1`; the Gram matrices of the new cell follow from the eigenvalue equations, the two eigenvalues agree because the two maps are adjoint; the factor left over is fixed by the norm that `position` sets to one.
* **C59** invariant: the vector on the current ends is a kernel applied to the vector on the inputs; one lemma gives the kernel after stitching any matrix to any ends, the controlled phases multiply it, the Hadamard matrices sum one bit; the product of all phases is a power of the root of unity modulo 2^n.
* **C60** invariant: the value on the current ends of the variables and of the open legs of the clause is a function of their bits; a copy node replaces the leg of the clause by the bit of its variable. The same invariant follows which nodes are connected, so that reachable returns all new nodes when the clauses link the variables.
* **C61** invariant: the nodes made so far have the list `state` as their open edges, and their value there is the wavefunction after the gates so far; each gate shares an edge with an earlier node, so that the fold of contract_between never meets two nodes without a shared edge.
* **C62** invariant: every finished node has the edges of its letters, different letters have different edges, letters seen once have dangling edges and letters seen twice connected ones; connect succeeds at a letter exactly if it was seen once with the same dimension.
* **C63** evaluate the node contraction and the `ncon` call to the Gram matrix and its Frobenius norm; distances are sums of squared absolute values over a list of entries, which vanish entrywise by definiteness.
* **C64** charges of fused legs are the outer product of the charges of the groups (`charges_of_app`); equality of unique charges and labels determines the charges.
* **C65** invariant of the two loops: the seen edges are those drawn; degrees by counting the occurrences of an edge at a node.
* **C66** 2 sum s - 2 Re objective(x) = sum of s_k |u_k - conj(x v_k)|^2 for every isometry x.
* **C67** An expression is its list of factors; permuting them permutes the network of C16, whose sum does not change.
* **C68** Every assigned position of the dense tensors has charge zero, so C27 applies; conservation by following the bond charge along the chain.
* **C69** Each term flips both spins or multiplies by signs; sum over the chain.
* **C70** Cut the list in two; the sums over the bonds of both parts commute.
* **C71** Induction over the list: the first node is converted and not met again.
* **C72** The strides are products of tails by induction; a permuted sum of strides times indices is the sum of the unpermuted one; the partition is the first maximum among the minima.
* **C73** Cases of the backend and x0; induction over args.
* **C74** The padded row has exactly the bytes of the dtype (cases of size and width); chunks undo concatenation.
* **C75** Induction over the names for the first position; cases of the number.

Findings (places where the faithful model violates the property) are recorded in section 4.

## 4. Findings

Each finding names the theorem in `R_*.v` whose witness is evaluated by the kernel. Paths are relative to `/repo/tensornetwork`.

Graph (`network_components.py`):

* `connect_stale_refuted`: `connect` accepts an edge object that an earlier `connect` already replaced on its node; the graph becomes inconsistent.
* `outer_product_self_refuted`: `outer_product(n, n)` raises after moving edges.
* `reorder_edges_repeat_refuted`: `reorder_edges` with a repeated edge passes the set comparison, moves edges, then raises.
* `split_trace_names_refuted`: `split_edge` of a trace edge leaves the wrong axis names.
* `split_trace_contract_refuted`: contracting an edge of a node after splitting one of its trace edges raises `IndexError` in `fresh_edges` (too few axis names) after the graph was changed.
* `redirect_edge_dim_refuted`, `redirect_edge_override_refuted`: `redirect_edge` checks neither the dimension nor that the target axis is dangling.
* `C22_negative_start_refuted`, `C22_below_range_refuted`: `slice_edge(e, -k, k)` gives tensors of dimension 0 (numpy `t[-k:0]`); a start below -dimension is accepted and gives fewer indices than asked for.
* `copy_trace_edge_dict_refuted`: the `edge_dict` returned by `copy` maps a trace edge to a fresh edge object that sits on no node (`network_operations.py`).
* Not proved, by reading: `split_node*` accept edges that were replaced on the node by an earlier `connect` (C12_split_rejects is about edges in use); `CopyNode.copy` raises for a trace edge; `copy` iterates its argument twice, so a generator gives unconnected copies and an empty `edge_dict`; `_flatten_trace_edges` leaves too many axis names, so a later `remove_node` raises.

Path contractors (`contractors/opt_einsum_paths/path_contractors.py`):

* `C23_auto_one_outside_refuted`, `C23_auto_one_swallows_refuted`: `auto` on a single node contracts any edge leading to a node outside the list: it either refuses the correct output order or returns the contraction with the neighbour.
* `C23_auto_one_ignore_refuted`: `auto` on a single node with `ignore_edge_order=True` and no order calls `reorder_edges(None)` and raises.
* `C23_contract_path_trace_refuted`: `contract_path` contracts trace edges but keeps the old nodes in its list; the network is then contracted from stale nodes.
* Not proved, by reading: `path_solver('auto')` uses `if` where `auto` uses early returns, so `n < 5` falls through to `branch(nbranch=1)`; `contract_path` appends to the caller's list.

ncon (`ncon_interface.py`):

* `open_label_traced_refuted`: a negative label twice on one tensor is traced away although it is an open label.
* `batch_trace_refuted`: `[[1,1],[1]]` gives trace times sum, not the sum over one index.
* `two_single_labels_refuted`: summed (once-occurring) labels on two tensors raise `ValueError: not in list`.
* `only_batch_refuted`: `[[1],[1],[1]]` is reported as an infinite loop.
* `open_sizes_unchecked_refuted`: sizes of open batch labels are not compared; size 1 is broadcast.

Charges and block-sparse tensors (`block_sparse/`):

* `ZN_large_refuted`: Z_n fusion for n > 16384 wraps in int16 before the remainder is taken.
* `U1_wrap_refuted`: U1 sums outside int16 wrap around.
* `charge_equal_refuted`, `C30_representation_refuted`, `C46_representation_refuted`: equality of charges compares representations, so tensordot and sums of tensors with equal charges can be refused.
* `unused_uniques_refuted`, `reduce_unused_refuted`: unique counts and `reduce` on charges with unused unique values.
* `C30_scalar_todense_refuted`, `C30_scalar_product_refuted`: a full contraction converts to a dense array of shape (1,); products of two scalars raise.
* `C30_shape_check_refuted`: tensordot compares elementary legs only, not the shapes of the contracted axes.
* `C32_mixed_symmetries_refuted`, `C32_number_of_symmetries_refuted`: the cache key omits charge type and number of symmetries, so with caching enabled (the default inside `eigsh_lanczos`, `eigs`, `gmres` of the symmetric backend) a Z2 tensor can receive the blocks of a U1 tensor, and one with two symmetries those of a tensor with one.
* `C31_empty_shape_refuted`: `reshape(())` loses the legs.
* `C33_padding_refuted`: symmetric `svd` pads the spectra of the blocks with zeros before sorting; without an error bound and with `max_singular_values` above the number of positive singular values it keeps padding instead of genuine zeros, so a block gets more singular values than U has columns.
* `C33_zero_refuted`: `max_singular_values=0` keeps everything including the padding (`inds[-0:]`).
* `C33_dimension_one_refuted`: when the last leg left of the pivot has dimension one, the symmetric `svd` raises (the greedy `reshape` to a matrix moves that leg to the columns).
* Not proved, by reading: `outerproduct` uses the dtype of the first tensor; negative and repeated `tensordot` axes are not validated; `ChargeArray.H` conjugates without flipping flows.

Backends (`backends/`):

* `C15_numpy_mixed_refuted`: numpy tensordot of two matrices with axes `[[0,-1],[-1,0]]` computes sum a_ij b_ij.
* `C15_numpy_rank0_refuted`, `C15_numpy_letters_refuted`: rank-0 operands and complete contractions of more than 26 axes raise.
* `C15_tensordot2_dims_refuted`: the tensorflow version compares only the product of the contracted dimensions.
* `C14_zero_diagonal_refuted`: `non_negative_diagonal=True` with a zero on the diagonal of R destroys the product (all backends).
* `C14_tensorflow_phases_refuted`: tensorflow/pytorch do not conjugate the phases; a complex diagonal changes the product.

Contexts and linear algebra (`backend_contextmanager.py`, `ops.py`, `linalg/`):

* `C42_initialize_node_refuted`: `node_linalg.eye/zeros/ones/randn/random_uniform` with `backend=None` use the default backend as an object and raise whenever it is a name, which includes the initial `"numpy"`.
* `C42_collection_default_refuted`: a `NodeCollection` block does not protect the default backend: `set_default_backend` inside it survives the block.
* `C44_kron_backends_refuted`: `linalg.operations.kron` compares the backend of the first tensor with itself, so operands of different backends are accepted.
* `C44_reshape_large_refuted`: numpy-backend `reshape` casts dimensions to int32; flattening 2^32 entries raises.
* Not proved, by reading: `DefaultBackend("nonexistent")` is accepted at entry; `ones_like`/`zeros_like` with `backend=None` on a raw array call a method on a string.

Matrix product operators (`matrixproductstates/mpo.py`):

* `C37_one_site_refuted`, `C37_one_site_no_coupling_refuted`: for one site `FiniteTFI` (and `FiniteXXZ`) build a first and a last tensor, i.e. a two-site operator, and raise when the coupling arrays are empty as they should be.

Matrix product states (`matrixproductstates/base_mps.py`, `finite_mps.py`):

* `C35_two_site_centre_refuted`: `apply_two_site_gate` without truncation arguments records the wrong centre. It splits with QR (isometry on the left) and records `site1`, or with RQ (isometry on the right) and records `site2`; the state is canonical around the other site (C35_two_site_canonical).
* `C35_one_site_centre_refuted`: `apply_one_site_gate` with a gate that is no isometry, away from the centre, keeps `center_position` although the tensor is no longer isometric.
* `C36_order_refuted`: `measure_two_body_correlator` returns the correlators in ascending order of the sites, each once, whatever the order of `sites2`; a caller pairing results with `sites2` misreads them unless `sites2` is strictly increasing.
* `C36_out_of_range_refuted`: sites out of range in `sites2` are taken modulo the length even for a finite chain; a value is returned that is no correlator of the state.
* Not proved, by reading: `bond_dimension(len(self))` raises `IndexError`; the in-place `/=` of `position` at the current centre can modify an array shared with the caller.

DMRG (`matrixproductstates/dmrg.py`):

* `C38_two_sites_of_one_refuted`: `run_two_site` optimises once before the loop to cover chains of one site, as the comment says, but the two-site step raises on such a chain for every solver.
* `C38_fresh_position_refuted`: a new `FiniteDMRG` stores the boundaries only; `position` and the local updates raise `KeyError` until `compute_left_envs`/`compute_right_envs` (or a run, which moves to site 0 first) was called.
* `C38_end_update_refuted`: the one-site update at an end of the chain throws the triangular factor away; with an outer bond larger than 1 the chain no longer fits the boundary. Hence the hypothesis `l <= 1 /\ r <= 1` for one-site updates.
* Not proved, by reading: `compute_energy` moves the centre to 0 and normalises the state, so that asking for the energy changes the object; `dmrg.mps.position(...)` called by the user makes the stored environments stale.

Copy tensors (`network_components.py`, `contractors/bucket_contractor.py`):

* `C21_neighbour_edges_refuted`: `contract_copy_node` leaves the used-up neighbours with their lists of edges, unlike the other contractions, which give them fresh edges; an edge of the new node is still listed by a dead node. Hence the theorems speak of the heap without these nodes.
* `C21_trace_only_refuted`: a copy tensor with trace edges only (or of rank 0) has a value, but `contract_copy_node` raises because einsum gets no operand.
* `C21_bucket_adjacent_refuted`: `bucket` raises for two adjacent copy tensors in the order, since the first contraction uses up the second one as a neighbour. Hence the hypothesis that the copy tensors of the order share no edge.
* Not proved, by reading: the ten digits at the end of `_VALID_SUBSCRIPTS` are not accepted by numpy's einsum, so the limit is 52 and not 62 subscripts (the model has the limit as a parameter).

### Contraction-order solvers (`contractors/custom_path_solvers/`)
* `C43_optimal_refuted`: `full_solve_complete` reports `is_optimal=True` for an order that is not: outer products are never tried while some two tensors share a leg (T[i,j,K] v[i] w[j], i = j = 2, K = 100: 600 multiplications reported as optimal, 404 when v and w are multiplied first). `C43_full` states exactly what is minimal: orders with outer products only when nothing else is left.
* `C43_greedy_cost_ones_refuted`, `C43_ncon_ones_refuted`: when all dimensions left are 1, `greedy_cost_solve` chooses to contract a tensor with itself (the penalties are all 0); `ncon_solver(max_branch=1)` then returns a list with open labels in it and labels repeated. Hence `lively` in `C43_greedy_cost`.
* `C43_single_refuted`: the solvers raise for one tensor (`None < None`).
* `C43_tags_refuted`: groups of tensors are identified by sums of powers of two in 64 bits; hence at most 64 tensors in `C43_full`.
* By reading: the argument `cost_bound` of `full_solve_complete` is overwritten (line 184) and has no effect; `ncon_cost_check` uses `np.float`, which current numpy no longer has; `ceil(0.8 * max_branch)` is computed in floats (exact in the model).

### Saving and loading (`network_operations.py`, `utils.py`)
* `C41_save_names_refuted`: `save_nodes` leaves the edges of the live network named `edge0`, `edge1`, ...: edges are removed from the list `edges` as they are saved, so the final loop that restores their names runs over an empty list. (`C41_save_effect` states exactly what changes; the file has the old names.)
* `C41_file_order_refuted`: with more than ten nodes `load_nodes` returns them in another order (`node10` before `node2`) and there is no way to tell which is which when names repeat; `C41_file_order` holds up to ten.
* `C41_file_scalar_refuted`: a rank-0 node can be saved but not loaded.
* `C41_json_first_end_refuted`: for an edge from a node that is left out to a node that is included, `nodes_from_json` gives an edge without first node that claims not to be dangling. (`C41_sound` shows that this is the only defect.)
* `C41_json_twice_refuted`: a node listed twice is loaded as two nodes, the edges all at the second. (`save_nodes` refuses such lists.)
* `nodes_to_json` raises for copy nodes (`C41_json_copy`).

### Operators given by networks (`quantum/quantum.py`)
* `C39_construct_repeated_edge_refuted`: an edge may be given both as in and as out edge: the constructor compares sets of edges and accepts the object, whose product with itself then raises although the spaces fit.
* `C39_identity_empty_refuted`: `identity([])` raises: the object has neither edges nor reference nodes.
* `C39_adjoint_trace_copy_refuted`: `identity(space).adjoint().trace()` is accepted, but every later operation on it raises: the trace edge of its CopyNode runs from axis 1 to axis 0, which `CopyNode.copy` cannot copy. `C39_partial_trace` states when the result can be copied (`forward`).
* `C39_partial_trace_repeated_refuted`: a repeated subsystem index raises.
* `C40_chain_of_identities_refuted`, `C40_product_of_three_identities_refuted`: `contract`/`eval` may raise "`in_edges`, `out_edges` … do not match" for a correct operator with two identities in a row, for instance `I @ I @ I`, depending on the iteration order of the set of nodes: `eliminate_identities` records for a loose edge the edge of the next node (131-141), and when that node is an identity removed later the record is not updated.
* `C40_scalar_loop_refuted`, `C40_scalar_factor_refuted`: `ref_nodes` may name one node of a part of the network without row or column edges (this is its documented use). If that node is an identity which is removed, the whole part is silently dropped and `eval` returns a wrong matrix, e.g. without the factor tr(A); for a loop of two identities this depends on the iteration order. `C40_eval` therefore assumes `linked`; the operations `@`, `tensor_product`, `partial_trace` pass all nodes as reference nodes.

### Krylov methods (`backends/*/`)

- `eigsh_lanczos` subtracts in place from the array returned by `A` (`A_vector_n -= ...`, `numpy_backend.py` 508-510). If `A` returns its argument (`lambda x: x`), the Krylov vector itself is overwritten and 0/0 is returned (`C49_operator_returning_its_argument_refuted`).
- `eigsh_lanczos` normalises the array given as `initial_state` in place (`vector_n /= norm_vector_n`), so the caller's array changes (`C49_initial_state_unchanged_refuted`).
- Fewer than `numeig` pairs are returned when the Krylov space becomes invariant early, with no error or warning (`C49_numeig_pairs_refuted`); the docstring promises `numeig`.
- The value returned is the lowest one only in the Krylov space of the initial vector (`C49_lowest_eigenvalue_refuted`); the zero vector gives 0/0 (`C49_zero_state_refuted`).

- `gmres` (jax): every restart builds the Krylov space of the residual of the current `x`, but `gmres_update` adds the correction to `x0`, not to `x` (`jitted_functions.py` 1178, 1221). A second restart can enlarge the residual (`C50_restart_worse_refuted`) and can throw away an exact solution and report success (`C50_solution_lost_refuted`, the operator is the identity).
- `gmres` (jax): `info` is the index of the last restart when not converged, so with the default `maxiter = 1` it is always 0, which the docstring calls success (`C50_info_refuted`); `done` is `k < num_krylov_vectors - 1`, not a statement about the residual. `maxiter = 0` leaves variables unbound (`C50_maxiter0_refuted`).
- `gmres` (jax): the tolerance is multiplied by |b| in `gmres_m` and the residual is divided by |b| in the loop, so the loop stops at tol |b|^2 (`C50_tolerance_refuted`).
- `gmres` (jax): the Arnoldi step replaces vectors not longer than the stopping tolerance by 0 (`v_norm > tol`), so a well conditioned operator with small entries gives 0/0 (`C50_scaled_rotation_refuted`).
- `gmres` (jax): Givens rotations do not conjugate; for complex operators the residual can grow (`C50_complex_refuted`).
- `gmres` (jax): `gmres_krylov_loop_condition` unpacks the carry in another order than `gmres_krylov_work`; its effect in the model is one more step `k = num_krylov_vectors`, whose results are not used.
- `eigsh` (jax): the last matrix is padded with zeros to `num_krylov_vecs` rows and its eigenvalues are sorted together with these zeros (`jitted_functions.py` 1053-1065). After convergence (numits = numeig) a negative definite operator has the "eigenvalue" 0 for `'LA'`, a positive definite one for `'SA'` (`C51_spurious_zero_refuted`, no warning; the FIXME there and the warning in `jax_backend.py` only mention numeig > numits). The same happens, with nan vectors, when the space is smaller than `num_krylov_vecs`, which `eigsh` does not reject (`C51_small_space_refuted`).
- `eigs` (jax): the convergence test takes the first `numeig` eigenvalues in the order of `eig`, not the wanted ones, of the matrix before it is cut, so it can report convergence for any residual (`C51_converged_refuted`).
- `_arnoldi_fact`, `_lanczos_fact`: the loop stops at norm <= tol, the flag says norm < tol (`C51_invariant_flag_refuted`; with tol = 0 an exactly invariant subspace is followed by restarts on zero vectors). The residual is returned normalised, not "unnormalized" (`C51_residual_refuted`). An initial state with norm <= tol gives nan (`C51_short_state_refuted`).
- `shifted_QR` with numeig = num_krylov_vecs: `[-0:]` makes all eigenvalues shifts and clamped reads give a vector that is no residual (`C51_all_vectors_refuted`).
- `inv` (block sparse) inverts the blocks it finds and ignores rows and columns whose charge has no partner: a singular square matrix gives a result and no `LinAlgError` (`C52_inv_singular_refuted`).
- `eigh`, `eig` (block sparse) do not check that column legs match row legs: for rows 0,1 and columns 1,0 the "eigenvalues" are the 1 x 1 blocks (`C52_eig_unmatched_refuted`).
- `qr` (block sparse) in mode 'complete': Q is square only when every row charge has a partner column (`C52_qr_complete_refuted`).
- `diag` of a 1-d `ChargeArray` on several elementary legs builds a tensor with two charges but twice as many flows and order entries as legs (`linalg.py` 79-86; `C52_diagflat_legs_refuted`).
- `pinv` (block sparse): the cutoff `rcond` is relative to the largest singular value of each block, not of the matrix (`C52_pinv_cutoff_refuted`).
- `trace` (block sparse, `linalg.py` 629-630) indexes the positions of the sorted legs by `np.argsort` of the order instead of by its inverse. For axes of three or more legs that are not stored in the same relative order the legs are paired wrongly: the result is not the trace (`C53_trace_value_refuted`), or the call raises though the axes match (`C53_trace_returns_refuted`).
- `trace` (block sparse) returns the other axes ungrouped: the shape is not that of `np.trace` when one of them is a group of legs (`C53_trace_shape_refuted`); a group with a leg of dimension 0 makes it raise (`C53_trace_empty_leg_refuted`).
- `eigsh_lanczos` (jax) divides by the norm of the next Krylov vector before it compares it with `delta` (`jitted_functions.py` 152-153, 177-181): an initial state that is an eigenvector gives nan, where the numpy backend returns the eigenpair (`C54_invariant_refuted`).
- The norm of the initial state itself is compared with `delta`: a state no longer than `delta` stops the loop after one round, and a spurious eigenvalue 0 with the residual as its vector is returned for a positive definite operator (`C54_scale_refuted`; the spurious values are announced by the FIXME in the code, the dependence on the length of the state is not). `numits` counts one too many, so the warning is missing when numeig - 1 rounds are done, and the vectors need not be orthogonal (`C54_warning_refuted`). With `delta >= 1` no round is done, since `betas[0] = 1.0` is compared first (`C54_delta_refuted`).
- `FiniteFreeFermion2D` on a 1 x 1 lattice (or one without sites) returns two tensors: an operator on two sites that moves particles between them (`C55_one_site_refuted`, `C55_empty_refuted`). For all other sizes, including N1 = 1 where assignments override each other, it is correct (`C55_free_fermion`).
- `DenseMPO.build` (and `Conv2DMPO.build`) checks divisibility with `round` but takes the leg dimension from `math.ceil` of the floating point root. When the root is rounded upwards the leg is one too large: `3125 ** (1. / 5)` is 5.000000000000001, so legs of dimension 6 are built and every call fails in `tf.reshape` (`C56_mpo_root_refuted`, for correctly rounded double precision; likewise 7776, 16807, 32768 with 5 nodes). `DenseEntangler` uses `round` and is correct.
- `DenseCondenser.build` does not check that the input dimension is a multiple of `exp_base ** num_nodes`; the layer is built and every call fails (`C56_condenser_refuted`).
- `DenseEntangler` with more than one level reshapes the state with its axes in a rotated leg order, not in the order of the `edges` list it keeps: axis j of the output is leg n + 1 + j modulo the number of legs, n being the number of nodes (stated in `C56_entangler`; harmless for training).
- `Conv2DMPO.call` reshapes the bias to `(1, filters)` and adds it to the result of `conv2d` whatever `data_format` is. For `channels_first` the last axis is the width: the call fails unless the width is 1 or `filters` (or `filters` is 1), and adds the bias of filter x to column x if the width is `filters` (`C57_channels_first_refuted`).
- `apply_transfer_operator` takes the tensors without the connecting matrix, `canonicalize` however includes it through `get_tensor(len - 1)`. A state that already has a connecting matrix (every result of `canonicalize`) is kept as a state when it is canonicalized (`C58_same_state`), but the result is not in the canonical form (`C58_connector_refuted`).
- `transfer_matrix_eigs` tests `if not initial_state`: an array with more than one entry raises ValueError, so `initial_state`, `left_initial_state` and `right_initial_state` cannot be used for bond dimensions above one (`C58_initial_state_refuted`).
- `add_fft` tests that its inputs are dangling only before it connects them. An edge that is given twice is connected twice: `add_fft` returns, and two nodes disagree about an edge (`C59_repeated_input_refuted`). The same holds for every use of `connect` with an edge object that was connected before, because the old object still says that it is dangling.
- `sat_count_tn` returns only the nodes that are reachable from the first variable, so problems in which variables are not linked by clauses are counted wrongly: `[(3, 3, 3)]` gives 2 instead of 4 (variables 1 and 2 occur in no clause) and `[(1, 1, 1), (2, 3, 4)]` gives 1 instead of 7 (`C60_unlinked_refuted`, `C60_two_parts_refuted`). The source has a TODO for this; the docstring does not mention it. A problem without clauses raises (`max` of an empty set), though it has one solution.
- `trotter_prepare_gates` accepts `H` of length num_sites-1 but reads `H[0].dtype`, so a single site with no terms raises IndexError instead of giving two empty layers (`C61_prepare` gives the exact domain).
- Non-euclidean Trotter evolution uses exp(+i dt h) (`1.j * step_size`), the inverse of the usual exp(-i dt H); `C61_evolve` states it with the sign of the code. The docstring gives no sign.
- `from_topology` asks for a string "like the left side of an einsum expression" but raises for a letter that stands twice in one part, such as the trace `xx`, because the letters become the axis names of the node (`C62_trace_refuted`).
- `check_canonical` raises `IndexError` (`deviations[0]` of an empty list) for every chain of one site, which is canonical (`C63_single_site_refuted`).
- `Index.__eq__` compares unique charges, labels and flows but not the charge types: a U1 and a Z2 index with charges 0, 1 are equal, so addition of tensors of different symmetries is not rejected (`C64_types_refuted`).
- `BaseCharge.__add__` takes the charge types of the left operand only: charges of different symmetries fuse without an error, and the result depends on the order (`C64_mixed_refuted`).
- `to_graphviz` takes any `Iterable` but iterates twice: given a generator it draws all nodes and no edge, without an error (`C65_iterator_refuted`).
- `to_graphviz` of some nodes of a network draws edges to vertices it never declares; graphviz shows these with the id as label (`C65_part_refuted`).
- `InfiniteMPO.roll` accepts negative numbers of sites but does not roll backwards: the unit cell becomes longer, with the last tensors repeated in front (`C70_negative`, `C70_negative_refuted`).
- `InfiniteMPO` compares only the first and last bond dimension: operators whose inner bonds do not fit are accepted, and refused after rolling (`C70_check_refuted`).
- `switch_backend` checks the nodes one by one while it converts them: after the exception some are switched and others not (`C71_atomic_refuted`).
- `switch_backend` raises `NotImplementedError` when a numpy node occurs twice in its list (`C71_repeat_refuted`).
- `_get_strides([])` has one stride for no axis (`C72_scalar_refuted`); `fuse_stride_arrays` raises for a stride 0, which an axis of dimension 0 gives to the axes before it (`C72_empty_refuted`). The block functions return before they use such strides.
- `krylov_error_checks` does not compare the backends of `args` with the backend, although its docstring says so (`C73_args_backend_refuted`).
- `krylov_error_checks` without backend raises `AttributeError`, not `TypeError`, for an `x0` that is not a Tensor (`C73_x0_error_refuted`).
- `expand(collapse(a))` of an array with one row is a number, not the array (`C74_one_row_refuted`); with no columns it has 8 (`C74_no_columns_refuted`). `get_dtype` returns `int64` for more than 8 bytes (`C74_dtype_refuted`).
- `get_edge(-1)` is the last edge, `get_dimension(-1)` raises (`C75_negative_refuted`).

## 5. Assumptions printed

All property theorems print `Closed under the global context`, except those of `P_Svd.v`, `P_SymSvd.v`, `R_SymSvd.v`, `C43_logs` of `P_PathSolve.v` `C56_mpo_root_refuted` of `R_Keras.v`, `C58_connector_refuted` of `R_MpsInf.v` and `C59_fft_complex` of `P_Fft.v` (statements about real numbers) and `C52_tensor_qr`, `C52_tensor_rq` (which reuse lemmas of C33 stated with a list of reals; only `sig_forall_dec`),
which print the axioms of Coq's `Reals`: `ClassicalDedekindReals.sig_not_dec`, `ClassicalDedekindReals.sig_forall_dec`,
`FunctionalExtensionality.functional_extensionality_dep`; `C43_logs` and `C56_mpo_root_refuted` (exponential and logarithm) also `Classical_Prop.classic`. `coqchk`, which lists what loaded library files contain, additionally shows `Coq.Logic.Classical_Prop.classic` and the `Coq.ssr.ssrunder.Under_rel`
module parameters of the standard library (loaded by `lia`/`ring` infrastructure, used by no theorem).
