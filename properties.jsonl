{"id": "C01", "title": "Pairwise contraction preserves the network's meaning", "statement": "Contracting two distinct nodes of a network over all the edges they share (contract_between, the @ operator, contract_parallel, contract of one edge followed by traces) replaces them by one node such that the value of the whole network, as a function of the indices of its dangling edges, is unchanged. The new node carries exactly the non-shared edge objects of the two nodes, and if an output_edge_order is given its axes follow it.", "quantifier": "every network of nodes with tensors of every rank and shape over every commutative semiring, every pair of nodes, every number and position of shared edges", "why_tests_cant": "Tests fix a handful of shapes and axis positions; the axis bookkeeping (sorting, flipping of operands, renumbering of remaining edges) has to be right for every interleaving of shared and free axes.", "anchors": ["tensornetwork/network_components.py:contract_between", "tensornetwork/network_components.py:_remove_edges", "tensornetwork/network_components.py:contract", "tensornetwork/network_components.py:contract_parallel", "tensornetwork/network_components.py:get_shared_edges"]}
{"id": "C02", "title": "The result of a full contraction does not depend on the schedule", "statement": "Contracting a network down to one node along any sequence of pairwise contractions, traces and outer products, then ordering its axes by the requested output_edge_order, yields one and the same tensor: the sum over all internal edge indices of the product of the node entries.", "quantifier": "every network and every two contraction schedules (any path returned by any path solver, any bucket order, any sequence of @)", "why_tests_cant": "The number of schedules is super-exponential in the number of nodes; tests only exercise the one schedule the solver happened to pick.", "anchors": ["tensornetwork/contractors/opt_einsum_paths/path_contractors.py:base", "tensornetwork/network_components.py:contract_between", "tensornetwork/network_components.py:outer_product", "tensornetwork/contractors/bucket_contractor.py:bucket"]}
{"id": "C03", "title": "Trace edges are summed correctly", "statement": "Contracting a trace edge (or all trace edges) of a node yields a node whose tensor is the partial trace over the paired axes, whose other edges keep their order and identity, and the network value is unchanged.", "quantifier": "every node rank, every placement of one or several trace edges on the axes, created in either axis order", "why_tests_cant": "The renumbering of the remaining axes depends on the relative positions of the two traced axes; the cases are unbounded in the rank.", "anchors": ["tensornetwork/network_components.py:_contract_trace", "tensornetwork/network_components.py:_remove_trace_edge", "tensornetwork/network_components.py:contract_trace_edges"]}
{"id": "C04", "title": "Outer products preserve the value and keep the edge order", "statement": "outer_product(node1,node2) gives a node with the edges of node1 followed by the edges of node2 and the product tensor; outer_product_final_nodes over any list does the same with the requested final order; the value of the network is unchanged.", "quantifier": "all pairs/lists of nodes of all ranks (including rank 0)", "why_tests_cant": "Edge update arithmetic (offset by the rank of the first node) must be right for all ranks.", "anchors": ["tensornetwork/network_components.py:outer_product", "tensornetwork/network_components.py:outer_product_final_nodes"]}
{"id": "C05", "title": "flatten_edges preserves the network value", "statement": "Flattening a set of parallel edges (shared by the same two nodes, trace edges of one node, or dangling edges of one node) into a single edge of the product dimension leaves the network value unchanged, where for dangling edges the new index is the row-major combination of the old indices.", "quantifier": "every rank, every number and order of flattened edges, every position of their axes on either node", "why_tests_cant": "Both nodes must be transposed and reshaped consistently; a mismatch in the ordering of the fused indices is invisible for symmetric tests and small ranks.", "anchors": ["tensornetwork/network_components.py:flatten_edges", "tensornetwork/network_components.py:flatten_edges_between", "tensornetwork/network_components.py:flatten_all_edges", "tensornetwork/network_components.py:_flatten_trace_edges"]}
{"id": "C06", "title": "split_edge is the inverse of flatten_edges", "statement": "Splitting an edge into edges of dimensions d1..dk (product = old dimension) preserves the network value, and splitting a flattened edge into the original dimensions recovers tensors with the original entries.", "quantifier": "every rank, position, and every factorisation of the dimension", "why_tests_cant": "Unbounded number of factorisations and axis positions.", "anchors": ["tensornetwork/network_components.py:split_edge", "tensornetwork/network_components.py:_split_trace_edge"]}
{"id": "C07", "title": "Graph well-formedness is an invariant of every history of API calls", "statement": "Starting from freshly created nodes, after any sequence of calls to connect, disconnect, contract, contract_between, contract of trace edges, outer_product, flatten_edges, split_edge, reorder_axes, reorder_edges, remove_node and copy, every live node's k-th edge points back to that node at axis k, both ends of every shared edge have equal dimension, and check_correct succeeds.", "quantifier": "every finite history of operations with every arguments", "why_tests_cant": "Invariants over mutable object graphs have to hold after unboundedly long interleavings of operations.", "anchors": ["tensornetwork/network_components.py:AbstractNode", "tensornetwork/network_components.py:Edge", "tensornetwork/network_components.py:connect", "tensornetwork/network_components.py:disconnect", "tensornetwork/network_operations.py:check_correct"]}
{"id": "C08", "title": "reorder_axes and reorder_edges only rename positions", "statement": "Reordering the axes of a node permutes its tensor, its edges and its axis names consistently: the network value is unchanged and edge k of the node after the call is edge perm[k] before it; reorder_edges puts the edges in exactly the requested order or raises.", "quantifier": "every rank and permutation, including nodes with trace edges for reorder_axes", "why_tests_cant": "n! permutations per rank; the code updates edges in a loop that reads state it also writes.", "anchors": ["tensornetwork/network_components.py:AbstractNode.reorder_axes", "tensornetwork/network_components.py:AbstractNode.reorder_edges", "tensornetwork/network_components.py:Edge.update_axis"]}
{"id": "C09", "title": "connect and disconnect are inverse and do exactly one change", "statement": "connect fails without change unless both edges are dangling, distinct and of equal dimension; otherwise it makes the two axes share one edge. Disconnecting that edge restores two dangling edges at the original axes. Breaking an edge turns the network value into the function of the two new dangling indices whose diagonal sum is the old value.", "quantifier": "every graph, every pair of axes, including two axes of the same node", "why_tests_cant": "State-dependent preconditions and aliasing cases.", "anchors": ["tensornetwork/network_components.py:connect", "tensornetwork/network_components.py:disconnect", "tensornetwork/network_components.py:Edge.disconnect"]}
{"id": "C10", "title": "copy produces an independent isomorphic network", "statement": "copy(nodes, conjugate) creates fresh nodes/edges with the same shape of graph; the copied network has the (conjugated) value of the original; the returned dictionaries map every node and edge to the corresponding installed node and edge; edges to nodes outside the set become dangling; later changes to the copy do not change the original.", "quantifier": "every set of nodes of every graph, including trace edges and multiple edges", "why_tests_cant": "Aliasing between the original and the copy appears only for particular graph shapes (trace edges, parallel edges).", "anchors": ["tensornetwork/network_operations.py:copy", "tensornetwork/network_components.py:Node.copy", "tensornetwork/network_components.py:CopyNode.copy"]}
{"id": "C11", "title": "reachable returns exactly the connected component", "statement": "reachable(x) returns the set of nodes connected to x by a finite chain of edges: nothing missing, nothing extra, terminating for cyclic graphs.", "quantifier": "every finite graph with cycles, traces, parallel edges and disconnected parts; every seed set", "why_tests_cant": "Closure properties quantify over all paths.", "anchors": ["tensornetwork/network_operations.py:reachable", "tensornetwork/network_operations.py:get_subgraph_dangling", "tensornetwork/network_operations.py:get_all_nodes", "tensornetwork/network_operations.py:get_all_edges"]}
{"id": "C12", "title": "Splitting a node by a matrix factorisation preserves the value", "statement": "split_node, split_node_full_svd, split_node_qr and split_node_rq with left_edges/right_edges replace the node by two (three) nodes joined by new edge(s); if the matrix routine returns factors whose product is its input, the network value is unchanged, and the left (right) node carries exactly the left (right) edge objects in the given order followed (preceded) by the new edge.", "quantifier": "every rank, every bipartition and order of the node's edges, every factorisation routine whose factors multiply back", "why_tests_cant": "All bipartitions and orders of edges; numerical tests only check a norm for a few shapes.", "anchors": ["tensornetwork/network_operations.py:split_node", "tensornetwork/network_operations.py:split_node_qr", "tensornetwork/network_operations.py:split_node_rq", "tensornetwork/network_operations.py:split_node_full_svd"]}
{"id": "C13", "title": "Truncated SVD keeps the fewest values allowed", "statement": "With max_singular_values=D and max_truncation_error=e (absolute, or relative to the largest value), svd keeps a prefix of the non-increasing singular values; its length is at most D; if D does not bind, the norm of the discarded values is <= e and keeping one value fewer would exceed e; the discarded list is exactly the rest.", "quantifier": "every non-increasing list of non-negative singular values, every D and e", "why_tests_cant": "The boundary behaviour (ties, zeros, e=0, D=0, D larger than the rank) is a statement over all spectra.", "anchors": ["tensornetwork/backends/numpy/decompositions.py:svd", "tensornetwork/backends/tensorflow/decompositions.py:svd", "tensornetwork/backends/pytorch/decompositions.py:svd"]}
{"id": "C14", "title": "QR/RQ phase fixing does not change the product", "statement": "qr and rq with non_negative_diagonal=True return factors whose product is still the input tensor.", "quantifier": "every matrix and every valid QR factorisation of it, real or complex, of full or deficient rank", "why_tests_cant": "Rank-deficient and complex inputs are measure-zero for random tests.", "anchors": ["tensornetwork/backends/numpy/decompositions.py:qr", "tensornetwork/backends/numpy/decompositions.py:rq", "tensornetwork/backends/tensorflow/decompositions.py:qr", "tensornetwork/backends/pytorch/decompositions.py:qr"]}
{"id": "C15", "title": "All tensordot implementations compute the same contraction", "statement": "The transposition+reshape+matmul implementation used for TensorFlow (with its operand-flipping heuristic and sorting of axes), and the einsum fast path of the NumPy backend used for complete inner products, both equal the mathematical definition of tensordot.", "quantifier": "all shapes, all ranks, all valid axes arguments (two lists, any order)", "why_tests_cant": "The heuristics choose among code paths by axis averages; covering all permutations of all ranks is impossible by testing.", "anchors": ["tensornetwork/backends/tensorflow/tensordot2.py:tensordot", "tensornetwork/backends/numpy/numpy_backend.py:NumPyBackend.tensordot"]}
{"id": "C16", "title": "ncon computes the Einstein sum", "statement": "For a network in which every positive label occurs on exactly two axes and every negative label on exactly one, ncon returns the sum over all positive labels of the product of the tensor entries, with axes ordered -1,-2,....", "quantifier": "every list of tensors and labels meeting the documented format: any number of tensors, ranks, traces, disconnected parts, outer products", "why_tests_cant": "Unbounded number of network topologies; the function is a loop over a mutable list of tensors and labels.", "anchors": ["tensornetwork/ncon_interface.py:ncon", "tensornetwork/ncon_interface.py:_partial_trace", "tensornetwork/ncon_interface.py:_jittable_ncon"]}
{"id": "C17", "title": "ncon's result does not depend on con_order", "statement": "Any con_order that is a permutation of the contracted labels gives the same result as the default one.", "quantifier": "every network and every permutation of its positive labels", "why_tests_cant": "n! orders per network.", "anchors": ["tensornetwork/ncon_interface.py:ncon", "tensornetwork/ncon_interface.py:_jittable_ncon"]}
{"id": "C18", "title": "ncon respects out_order and label renaming", "statement": "out_order permutes exactly the axes of the result; replacing the labels by any others (integers or strings) in an order-preserving way does not change the result.", "quantifier": "every network, every out_order, every relabelling", "why_tests_cant": "Labels may be arbitrary integers or strings; canonicalisation sorts them.", "anchors": ["tensornetwork/ncon_interface.py:_canonicalize_network_structure", "tensornetwork/ncon_interface.py:_get_cont_out_labels", "tensornetwork/ncon_interface.py:ncon"]}
{"id": "C19", "title": "ncon accepts exactly the well-formed networks", "statement": "With check_network=True, ncon raises a ValueError iff the structure is malformed: number of tensors vs labels, rank mismatch, con_order/out_order not matching the labels, or two axes with the same label having different dimensions.", "quantifier": "every input structure", "why_tests_cant": "Soundness and completeness of a validation routine is a statement over all inputs.", "anchors": ["tensornetwork/ncon_interface.py:_check_network"]}
{"id": "C20", "title": "Batch (hyper) labels in ncon", "statement": "If a label occurs on more than two axes, or a negative label on several, ncon treats it as a batch index: it is kept until the last occurrence and then summed (positive) or left as one output axis (negative).", "quantifier": "every network with batch labels on distinct tensors", "why_tests_cant": "Interaction between batch labels and the pairwise loop depends on the contraction order.", "anchors": ["tensornetwork/ncon_interface.py:_batch_cont", "tensornetwork/ncon_interface.py:_jittable_ncon"]}
{"id": "C21", "title": "Copy tensors behave as generalised deltas", "statement": "A CopyNode of rank r and dimension d denotes the tensor that is 1 when all indices agree and 0 otherwise, and contract_copy_node (which never builds this tensor) gives the same result as contracting the explicit tensor.", "quantifier": "every rank, dimension, every set of neighbouring nodes and attachment axes", "why_tests_cant": "Special-cased einsum construction must agree with the explicit tensor for every graph around it.", "anchors": ["tensornetwork/network_components.py:CopyNode", "tensornetwork/network_components.py:contract_copy_node", "tensornetwork/network_components.py:CopyNode.make_copy_tensor"]}
{"id": "C22", "title": "slice_edge restricts the index range", "statement": "slice_edge(e,start,length) replaces the dimension of the edge by length and the value of the network by the same sum restricted to indices start..start+length-1 on both ends; out-of-range arguments are rejected.", "quantifier": "every edge kind (dangling, shared, trace), every start/length including negative start", "why_tests_cant": "Boundary conditions on start and length.", "anchors": ["tensornetwork/network_components.py:slice_edge"]}
{"id": "C23", "title": "Contracting by a path contracts everything exactly once", "statement": "base/greedy/optimal/branch/auto/custom: for any valid path produced by the solver for the given nodes, the contractor first removes trace edges, performs len(path) pairwise contractions, ends with exactly one node holding the original dangling edges in the requested order; the given nodes' network value is the resulting tensor.", "quantifier": "every network, every valid path", "why_tests_cant": "Solver output is opaque; correctness must hold for every path it might return.", "anchors": ["tensornetwork/contractors/opt_einsum_paths/path_contractors.py:base", "tensornetwork/contractors/opt_einsum_paths/path_contractors.py:contract_path", "tensornetwork/contractors/opt_einsum_paths/path_contractors.py:auto", "tensornetwork/contractors/opt_einsum_paths/utils.py:get_path"]}
{"id": "C24", "title": "Charges form abelian groups under fusion", "statement": "For U1, Z2, ZN and products of them, fusing charges is associative, commutative, has the identity charge as unit and dual as inverse, and multiplication with the flow sign distributes over fusion.", "quantifier": "all charge values", "why_tests_cant": "Algebraic laws over all values (including 16-bit wrap-around).", "anchors": ["tensornetwork/block_sparse/charge.py:U1Charge", "tensornetwork/block_sparse/charge.py:Z2Charge", "tensornetwork/block_sparse/charge.py:ZNCharge", "tensornetwork/block_sparse/charge.py:BaseCharge.__add__", "tensornetwork/block_sparse/charge.py:fuse_charges"]}
{"id": "C25", "title": "Charge arrays are a faithful compressed representation", "statement": "Storing charges as (unique values, labels) loses nothing: unique, intersect, reduce, getitem, fuse and equality act on the represented list of charges as the corresponding list operations.", "quantifier": "every list of charges and every compressed representation of it", "why_tests_cant": "Several representations denote the same charges; the operations must be independent of the representation.", "anchors": ["tensornetwork/block_sparse/charge.py:BaseCharge", "tensornetwork/block_sparse/charge.py:charge_equal", "tensornetwork/block_sparse/utils.py:unique", "tensornetwork/block_sparse/utils.py:intersect", "tensornetwork/block_sparse/utils.py:collapse"]}
{"id": "C26", "title": "The stored data are exactly the symmetry-allowed entries", "statement": "The number of stored entries of a block-sparse tensor equals the number of index tuples whose signed charges fuse to the identity, and its data vector enumerates exactly those tuples in row-major order.", "quantifier": "all numbers of legs, all charge lists, all flows, all charge groups", "why_tests_cant": "Counting statement over all charge assignments.", "anchors": ["tensornetwork/block_sparse/blocksparse_utils.py:compute_num_nonzero", "tensornetwork/block_sparse/blocksparse_utils.py:compute_fused_charge_degeneracies", "tensornetwork/block_sparse/blocksparse_utils.py:reduce_charges"]}
{"id": "C27", "title": "Dense/sparse round trip", "statement": "fromdense(indices, todense(T)) recovers T, and todense(fromdense(indices, a)) equals a when a vanishes outside the allowed entries; todense puts zero on all forbidden entries.", "quantifier": "all block-sparse tensors", "why_tests_cant": "Quantifies over all charge configurations.", "anchors": ["tensornetwork/block_sparse/blocksparsetensor.py:BlockSparseTensor.todense", "tensornetwork/block_sparse/blocksparsetensor.py:BlockSparseTensor.fromdense"]}
{"id": "C28", "title": "The diagonal blocks partition the data", "statement": "For every matricisation of the legs (a permutation and a split into row and column legs) the stored data decompose into blocks: every stored entry lies in exactly one block, and the block of charge q lists the entries with row charge q and column charge -q in row-major order, with a shape equal to the number of such rows and columns.", "quantifier": "all charges, flows, partitions, and leg permutations", "why_tests_cant": "Index arithmetic with cumulative degeneracies, valid for all charge lists.", "anchors": ["tensornetwork/block_sparse/blocksparse_utils.py:_find_diagonal_sparse_blocks", "tensornetwork/block_sparse/blocksparse_utils.py:_find_transposed_diagonal_sparse_blocks"]}
{"id": "C29", "title": "Transposition of block-sparse tensors is faithful", "statement": "transpose (lazy) and contiguous (data moving) commute with todense: todense(contiguous(transpose(T,p))) = transpose(todense T, p).", "quantifier": "all tensors, permutations and compositions of them", "why_tests_cant": "All permutations of all leg numbers and all charges.", "anchors": ["tensornetwork/block_sparse/blocksparsetensor.py:ChargeArray.transpose", "tensornetwork/block_sparse/blocksparsetensor.py:ChargeArray.contiguous", "tensornetwork/block_sparse/blocksparsetensor.py:BlockSparseTensor.contiguous"]}
{"id": "C30", "title": "Block-sparse tensordot equals dense tensordot", "statement": "todense(tensordot(A,B,axes)) = tensordot(todense A, todense B, axes) whenever the contracted legs carry opposite flows and equal charges.", "quantifier": "all block-sparse tensors and axes", "why_tests_cant": "Correctness over all charge structures, including missing blocks and empty intersections.", "anchors": ["tensornetwork/block_sparse/blocksparsetensor.py:tensordot", "tensornetwork/block_sparse/blocksparsetensor.py:outerproduct"]}
{"id": "C31", "title": "Reshaping block-sparse tensors is lazy and faithful", "statement": "reshape only regroups the elementary legs; it succeeds exactly when the new shape can be obtained by grouping the elementary dimensions, and todense commutes with it.", "quantifier": "all leg structures and target shapes", "why_tests_cant": "The grouping is a greedy partition over arbitrary dimension lists (including dimension one).", "anchors": ["tensornetwork/block_sparse/blocksparsetensor.py:ChargeArray.reshape"]}
{"id": "C32", "title": "Caching never changes results", "statement": "With block caching enabled, every operation on block-sparse tensors returns the same result as with caching disabled.", "quantifier": "every history of operations with caching switched on and off", "why_tests_cant": "Needs the cache key to determine the cached value: a statement over all pairs of inputs.", "anchors": ["tensornetwork/block_sparse/caching.py", "tensornetwork/block_sparse/blocksparse_utils.py:_to_string", "tensornetwork/block_sparse/blocksparse_utils.py:_find_transposed_diagonal_sparse_blocks"]}
{"id": "C33", "title": "Symmetric SVD truncation is consistent", "statement": "The symmetric svd keeps exactly the globally largest singular values across blocks subject to max_singular_values and max_truncation_error, returns tensors U,S,V with matching bond charges, and never keeps padding.", "quantifier": "every family of block spectra (including zero singular values), every D and e", "why_tests_cant": "Ties and zeros interact with padding; measure-zero for random tests.", "anchors": ["tensornetwork/backends/symmetric/decompositions.py:svd"]}
{"id": "C34", "title": "Moving the MPS centre preserves the state and the canonical form", "statement": "position(site) leaves the represented state unchanged up to the product of the norms divided out, makes every tensor left of site left-isometric and every tensor right of site right-isometric if this held around the old centre, and keeps bond dimensions matching.", "quantifier": "all chain lengths, all start and target sites, all factorisation routines meeting the QR/RQ contract", "why_tests_cant": "Induction over the sweep for all lengths.", "anchors": ["tensornetwork/matrixproductstates/base_mps.py:BaseMPS.position", "tensornetwork/matrixproductstates/finite_mps.py:FiniteMPS.canonicalize", "tensornetwork/matrixproductstates/finite_mps.py:FiniteMPS.__init__"]}
{"id": "C35", "title": "MPS gates act as the operator and keep the recorded centre truthful", "statement": "apply_one_site_gate / apply_two_site_gate (without truncation) multiply the state by the gate on the given sites; afterwards, if center_position is not None, all tensors left/right of it are left/right isometric.", "quantifier": "all lengths, sites, gates, centre choices", "why_tests_cant": "The second clause is a property of the sequence of later measurements, not of one call.", "anchors": ["tensornetwork/matrixproductstates/base_mps.py:BaseMPS.apply_two_site_gate", "tensornetwork/matrixproductstates/base_mps.py:BaseMPS.apply_one_site_gate"]}
{"id": "C36", "title": "Environments and local measurements are exact", "statement": "left_envs/right_envs return the contraction of all tensors to the left/right with their conjugates; measure_local_operator and measure_two_body_correlator return the expectation values of the full state.", "quantifier": "all lengths, sets of sites, operators; canonical states with any centre", "why_tests_cant": "Shortcuts (identities on the isometric side) are valid only through the canonical form for all lengths.", "anchors": ["tensornetwork/matrixproductstates/finite_mps.py:FiniteMPS.left_envs", "tensornetwork/matrixproductstates/finite_mps.py:FiniteMPS.right_envs", "tensornetwork/matrixproductstates/base_mps.py:BaseMPS.measure_local_operator", "tensornetwork/matrixproductstates/base_mps.py:BaseMPS.measure_two_body_correlator"]}
{"id": "C37", "title": "The model Hamiltonian MPOs equal their Hamiltonians", "statement": "Contracting the matrix product operator of FiniteXXZ (FiniteTFI) gives exactly sum_n Jz_n Sz_n Sz_n+1 + Jxy_n/2 (S+S- + S-S+) + Bz_n Sz_n (sum_n Jx_n sx_n sx_n+1 + Bz_n sz_n).", "quantifier": "all chain lengths N >= 2 and all couplings", "why_tests_cant": "Exponentially large operator for each N; induction over N.", "anchors": ["tensornetwork/matrixproductstates/mpo.py:FiniteXXZ", "tensornetwork/matrixproductstates/mpo.py:FiniteTFI"]}
{"id": "C38", "title": "DMRG environments are never stale", "statement": "Throughout any sequence of position moves and local updates, the left environment stored for the current site equals the contraction of all current tensors to its left with the MPO (same for right), so that the local eigenproblem is the exact restriction of the Hamiltonian.", "quantifier": "all histories of sweeps and position calls, all lengths", "why_tests_cant": "Cache-coherence property over histories.", "anchors": ["tensornetwork/matrixproductstates/dmrg.py:BaseDMRG.position", "tensornetwork/matrixproductstates/dmrg.py:BaseDMRG._optimize_1s_local", "tensornetwork/matrixproductstates/dmrg.py:BaseDMRG._optimize_2s_local", "tensornetwork/matrixproductstates/dmrg.py:BaseDMRG.compute_right_envs"]}
{"id": "C39", "title": "QuOperator arithmetic is linear algebra", "statement": "The matrix denoted by A@B, A.adjoint(), A.partial_trace(S), A.tensor_product(B), scalar*A and identity(space) is the product, conjugate transpose, partial trace, Kronecker product, multiple and identity of the denoted matrices, and the operands are not modified.", "quantifier": "all operators given by arbitrary networks", "why_tests_cant": "Arbitrary network topologies behind each operator.", "anchors": ["tensornetwork/quantum/quantum.py:QuOperator", "tensornetwork/quantum/quantum.py:identity"]}
{"id": "C40", "title": "Eliminating identities preserves the operator", "statement": "QuOperator.contract/eval first removes identity copy nodes; the remaining network with the replaced dangling edges denotes the same operator, independently of the iteration order over the node set.", "quantifier": "all networks, all iteration orders of the node set", "why_tests_cant": "Python set iteration order is a schedule outside the user's control.", "anchors": ["tensornetwork/quantum/quantum.py:eliminate_identities", "tensornetwork/quantum/quantum.py:QuOperator.contract"]}
{"id": "C41", "title": "Network serialisation round trip", "statement": "nodes_from_json(nodes_to_json(nodes)) and load_nodes(save_nodes(nodes)) give a network isomorphic to the saved one: same tensors, names, axis names, edge names and connectivity; saving does not alter the live network.", "quantifier": "all node collections, including sub-networks with edges leaving the collection, rank-0 nodes, copy nodes", "why_tests_cant": "Arbitrary graphs and ordering of files' keys.", "anchors": ["tensornetwork/network_operations.py:nodes_to_json", "tensornetwork/network_operations.py:nodes_from_json", "tensornetwork/utils.py:save_nodes", "tensornetwork/utils.py:load_nodes"]}
{"id": "C42", "title": "Default-backend and node-collection contexts are properly nested", "statement": "After leaving a `with DefaultBackend` / `with NodeCollection` block, normally or by exception, the default backend and the current collection are those in force before entering, for arbitrarily nested blocks; a node is recorded in exactly the innermost active collection; set_default_backend is refused inside a block.", "quantifier": "every properly nested history of enter/exit/set/create events", "why_tests_cant": "Histories of unbounded nesting.", "anchors": ["tensornetwork/backend_contextmanager.py", "tensornetwork/ops.py:NodeCollection"]}
{"id": "C43", "title": "Exhaustive path solver bookkeeping", "statement": "greedy and full contraction-order solvers return an order that contracts every internal edge exactly once, and the reported cost is the cost of contracting along that order; the exhaustive solver's cost is minimal.", "quantifier": "all log-adjacency matrices", "why_tests_cant": "Optimality over all orders.", "anchors": ["tensornetwork/contractors/custom_path_solvers/pathsolvers.py", "tensornetwork/contractors/custom_path_solvers/nconinterface.py"]}
{"id": "C44", "title": "Reshape, transpose and pivot are consistent", "statement": "reshape preserves row-major order, transpose by p then by the inverse of p is the identity, transposing by p then q is transposing by their composition, reshape to the same shape is the identity, pivot equals reshape to (prod left, prod right), and kron(A,B) pivoted equals the matrix Kronecker product of the pivoted operands.", "quantifier": "all shapes and permutations", "why_tests_cant": "Unbounded ranks and shapes.", "anchors": ["tensornetwork/backends/abstract_backend.py:pivot", "tensornetwork/linalg/operations.py:kron", "tensornetwork/linalg/node_linalg.py:kron", "tensornetwork/backends/numpy/numpy_backend.py:NumPyBackend.reshape"]}
{"id": "C45", "title": "remove_node and redirect_edge do exactly the advertised rewiring", "statement": "remove_node(n) detaches n from all neighbours, giving every neighbour a fresh dangling edge at the same axis and reporting them by axis; redirect_edge moves one end of an edge from one node to another's dangling axis leaving everything else unchanged.", "quantifier": "all graphs", "why_tests_cant": "Aliasing with traces and parallel edges.", "anchors": ["tensornetwork/network_operations.py:remove_node", "tensornetwork/network_operations.py:redirect_edge"]}
{"id": "C46", "title": "Sums and scalar operations on block-sparse tensors", "statement": "todense(A+B)=todense A+todense B, todense(A-B), todense(s*A) for tensors with the same leg structure in whatever internal leg order, without changing the value of the operands.", "quantifier": "all pairs of tensors whose legs match but whose internal storage orders differ", "why_tests_cant": "Storage order differs by arbitrary permutations.", "anchors": ["tensornetwork/block_sparse/blocksparsetensor.py:ChargeArray.__add__", "tensornetwork/block_sparse/blocksparsetensor.py:_align_storage_layout"]}
{"id": "C47", "title": "Reduced density networks", "statement": "reduced_density(traced_out_edges) builds a network whose value is the sum over the traced edges of psi times conj(psi).", "quantifier": "all networks and subsets of dangling edges", "why_tests_cant": "All subsets of edges of all networks.", "anchors": ["tensornetwork/network_operations.py:reduced_density"]}
{"id": "C48", "title": "Parallel edge queries", "statement": "get_shared_edges, get_parallel_edges, get_all_nondangling and get_all_dangling return exactly the edges of the stated kind between the given nodes.", "quantifier": "all graphs", "why_tests_cant": "Set-valued specification over all graphs.", "anchors": ["tensornetwork/network_components.py:get_shared_edges", "tensornetwork/network_components.py:get_parallel_edges", "tensornetwork/network_components.py:AbstractNode.get_all_dangling"]}
{"id": "C49", "title": "Lanczos eigensolver", "statement": "For a Hermitian operator eigsh_lanczos returns the lowest Ritz pairs of the Krylov space spanned by init, A init, ...: the Krylov vectors are orthonormal, A V = V T + r e^T with T tridiagonal, the vectors returned are orthonormal with A x - theta x a multiple (at most 1) of r, and they are exact eigenvectors when the Krylov space is invariant; reorthogonalize makes no difference in exact arithmetic.", "quantifier": "all Hermitian operators on all inner product spaces, all initial vectors, numbers of Krylov vectors and eigenvalues, tolerances and restart intervals, all eigensolvers meeting the eigh contract", "why_tests_cant": "Every operator, initial vector and stopping point; tests compare a few random matrices up to rounding.", "anchors": ["tensornetwork/backends/numpy/numpy_backend.py:eigsh_lanczos", "tensornetwork/backends/symmetric/symmetric_backend.py:eigsh_lanczos"]}
{"id": "C50", "title": "GMRES of the jax backend", "statement": "For a linear operator over a real field, one restart of gmres builds an orthonormal basis of the Krylov space of the residual and adds the element of that space that makes the new residual smallest; the residual is within the stopping tolerance when the loop stops early; the solution is exact when the Krylov space is invariant, in particular for an invertible operator with as many Krylov vectors as unknowns; bad tolerances and sizes are rejected.", "quantifier": "all linear operators on all real inner product spaces, all right-hand sides, initial guesses, tolerances and numbers of Krylov vectors", "why_tests_cant": "Every operator and stopping point; tests compare a few random matrices with maxiter 1 or full Krylov spaces up to rounding.", "anchors": ["tensornetwork/backends/abstract_backend.py:gmres", "tensornetwork/backends/jax/jax_backend.py:_gmres", "tensornetwork/backends/jax/jitted_functions.py:gmres_wrapper"]}
{"id": "C51", "title": "Krylov factorisations and implicitly restarted eigensolvers of the jax backend", "statement": "_arnoldi_fact and _lanczos_fact return an orthonormal basis of the Krylov space, a Hessenberg (tridiagonal) matrix H and a residual f with A V = V H + f e^T, from scratch or continuing an earlier factorisation; shifted_QR compresses a factorisation to numeig vectors whose first is the filtered first vector; eigs and eigsh return numeig eigenvalues in the order asked for, and every nonzero one (all if the last factorisation is complete) belongs to a unit vector x with A x = theta x + c f, |c| <= 1; for hermitian operators the vectors are orthonormal and the eigenvalues extremal in the space.", "quantifier": "all linear (hermitian) operators on all real or complex inner product spaces, all initial states, tolerances, numbers of vectors, eigenvalues and restarts, all qr and eig oracles meeting their contract", "why_tests_cant": "Every operator, number of restarts and stopping point; tests compare a few random matrices with numpy up to rounding, so they miss the padding zeros returned for definite operators.", "anchors": ["tensornetwork/backends/jax/jitted_functions.py:_generate_arnoldi_factorization", "tensornetwork/backends/jax/jitted_functions.py:_generate_lanczos_factorization", "tensornetwork/backends/jax/jitted_functions.py:_shifted_QR", "tensornetwork/backends/jax/jitted_functions.py:_implicitly_restarted_arnoldi", "tensornetwork/backends/jax/jitted_functions.py:_implicitly_restarted_lanczos", "tensornetwork/backends/jax/jax_backend.py:eigs", "tensornetwork/backends/jax/jax_backend.py:eigsh"]}
{"id": "C52", "title": "Linear algebra of block-sparse tensors agrees with the dense one", "statement": "norm, sqrt/abs/sign, eye (square and rectangular), diag (both directions), qr (reduced, complete, r), eigh/eig, inv and pinv of a symmetric matrix, computed block by block, are those of the dense matrix: Q R = M with orthonormal Q, M V = V diag(E), M X = X M = 1, the Penrose conditions; the new bonds carry the charges of the blocks and the factors are symmetric and contractible. The tensor routines qr, rq, broadcast_right/left_multiplication of the symmetric backend factor and scale the dense tensor.", "quantifier": "all abelian charges, all well formed symmetric tensors with any grouping and order of the legs, all semirings with conjugation, all numpy oracles meeting their contract on the blocks", "why_tests_cant": "All sector structures, leg orders and groupings; the tests use random charges where rows and columns match and square matrices, so unmatched sectors are not seen.", "anchors": ["tensornetwork/block_sparse/linalg.py:norm", "tensornetwork/block_sparse/linalg.py:diag", "tensornetwork/block_sparse/linalg.py:qr", "tensornetwork/block_sparse/linalg.py:eigh", "tensornetwork/block_sparse/linalg.py:eig", "tensornetwork/block_sparse/linalg.py:inv", "tensornetwork/block_sparse/linalg.py:sqrt", "tensornetwork/block_sparse/linalg.py:eye", "tensornetwork/block_sparse/linalg.py:pinv", "tensornetwork/block_sparse/linalg.py:abs", "tensornetwork/block_sparse/linalg.py:sign", "tensornetwork/backends/symmetric/decompositions.py:qr", "tensornetwork/backends/symmetric/decompositions.py:rq", "tensornetwork/backends/symmetric/symmetric_backend.py:broadcast_right_multiplication", "tensornetwork/backends/symmetric/symmetric_backend.py:broadcast_left_multiplication"]}
{"id": "C53", "title": "The trace of a block-sparse tensor is the trace of the dense tensor", "statement": "trace(tensor, axes) over two axes with opposite flows and equal charges returns a well formed symmetric tensor whose axes are the elementary legs of the other axes and whose dense tensor is np.trace of the dense tensor over these axes, reshaped; axes that do not match raise.", "quantifier": "all abelian charges, all well formed symmetric tensors, all axes, all groupings and orders of the elementary legs whose pairs the code finds (at most two legs, increasing legs, or legs in the same relative order)", "why_tests_cant": "All leg orders: the tests trace axes whose legs are stored in increasing order, where argsort is its own inverse.", "anchors": ["tensornetwork/block_sparse/linalg.py:trace", "tensornetwork/block_sparse/linalg.py:eye", "tensornetwork/block_sparse/blocksparsetensor.py:tensordot"]}
{"id": "C54", "title": "eigsh_lanczos of the jax backend returns Ritz pairs", "statement": "For a Hermitian operator jax_lanczos builds an orthonormal basis of the Krylov space of the initial state, the tridiagonal matrix it diagonalises is the projection of the operator surrounded by zeros, and if all num_krylov_vecs rounds are done the numeig pairs returned are the lowest Ritz pairs (exact if the space is invariant), with or without reorthogonalisation; stopped early, every non-zero eigenvalue returned is still a Ritz value with a unit Ritz vector.", "quantifier": "all fields with conjugation, all inner product spaces, all Hermitian operators, initial states, num_krylov_vecs, numeig, delta", "why_tests_cant": "Tests use random operators and states of norm about 1, where no norm is near delta and the Krylov space is never invariant.", "anchors": ["tensornetwork/backends/jax/jitted_functions.py:_generate_jitted_eigsh_lanczos", "tensornetwork/backends/jax/jax_backend.py:eigsh_lanczos"]}
{"id": "C55", "title": "FiniteFreeFermion2D is the hopping Hamiltonian of fermions on the lattice", "statement": "For all amplitudes t1, t2, v and every N1 x N2 lattice of at least two sites the constructor succeeds with N1*N2 tensors, and every matrix element of their contraction between occupation number states is that of v sum n_p + t1 sum over vertical bonds (c+_p c_q + h.c.) + t2 sum over horizontal bonds (c+_p c_q + h.c.) with fermionic creation and annihilation operators; no bond connects the end of a column with the beginning of the next.", "quantifier": "all commutative semirings with an element squaring to 1, all t1, t2, v, all lattice sizes N1, N2 with N1*N2 >= 2, all pairs of basis states", "why_tests_cant": "The tests compare the single-particle spectrum of small square lattices; signs from particles passed by a hop only show in states with several particles, and the overriding assignments only matter for N1 = 1 or N2 = 1.", "anchors": ["tensornetwork/matrixproductstates/mpo.py:FiniteFreeFermion2D"]}
{"id": "C56", "title": "The dense layers of tn_keras are dense layers with the weight matrix of their network", "statement": "For every input array of rank at least two, every activation acting on the last axis, with or without bias, DenseDecomp, DenseMPO, DenseCondenser, DenseExpander and DenseEntangler with weights of the shapes made by build return an array of the shape announced by compute_output_shape; each row along the last axis is the activation of W x + bias, where W is the matrix given by contracting the drawn network: a product of two matrices, a matrix product operator on the digits of the indices, products of three-index nodes consuming or producing one digit each, or (entangler) the successive two-leg gates, read with the legs in a fixed rotation.", "quantifier": "all commutative semirings, all weights, biases, inputs, batch shapes, numbers of nodes, levels, bond and leg dimensions accepted by build (DenseMPO: leg dimensions that are exact roots; DenseCondenser: divisible input)", "why_tests_cant": "The tests check shapes and that training reduces a loss; a network contracted over wrong legs, or digits consumed in a wrong order, also trains.", "anchors": ["tensornetwork/tn_keras/dense.py:DenseDecomp", "tensornetwork/tn_keras/mpo.py:DenseMPO", "tensornetwork/tn_keras/condenser.py:DenseCondenser", "tensornetwork/tn_keras/expander.py:DenseExpander", "tensornetwork/tn_keras/entangler.py:DenseEntangler"]}
{"id": "C57", "title": "Conv2DMPO convolves with the kernel of its network and adds the bias of the channel", "statement": "For weights of the shapes made by build, Conv2DMPO contracts and flattens its nodes to a kernel of shape (height, width, channels, filters) whose entry is the sum over the bonds of the chain with node j at digit j of both channel indices, row on the first and column on the last node; for channels_last the result is the activation of the convolution with this kernel plus the bias of the channel.", "quantifier": "all commutative semirings, weights, biases, activations, numbers of nodes, kernel sizes, bond and leg dimensions accepted by build with exact roots; conv2d (strides, padding, dilation) an arbitrary function of inputs and kernel", "why_tests_cant": "The tests check output shapes and that training reduces a loss; a kernel with exchanged or reordered digits also trains. The bias along the wrong axis for channels_first raises or is wrong only depending on the width of the image.", "anchors": ["tensornetwork/tn_keras/conv2d_mpo.py:build", "tensornetwork/tn_keras/conv2d_mpo.py:call", "tensornetwork/network_components.py:flatten_edges"]}
{"id": "C58", "title": "canonicalize of an infinite MPS keeps the state and returns the canonical form with its Schmidt values", "statement": "unit_cell_transfer_operator is the transfer map of the whole unit cell, from the left and from the right; transfer_matrix_eigs returns one of its eigenvectors. If the eigenvectors found are multiples of positive matrices beyond the cutoff and only zero singular values are discarded, then canonicalize returns a state whose amplitudes on every ring of unit cells are those of the old state up to one factor per cell; the connecting matrix is the inverse of the diagonal matrix of real Schmidt values with squares summing to one; every site before the last is an isometry; and, if there was no connecting matrix before, cell times connecting matrix is isometric from the left and connecting matrix times cell from the right.", "quantifier": "all commutative semirings with conjugation and division, unit cells of any length, physical and bond dimensions, connecting matrices, rings of any length; qr, svd, eigs, eigh, inv, norm arbitrary functions with their contracts", "why_tests_cant": "The tests canonicalize a few random unit cells without a connecting matrix and compare with tolerances; that the state itself is kept is not tested, and a state with a connecting matrix never occurs.", "anchors": ["tensornetwork/matrixproductstates/infinite_mps.py:canonicalize", "tensornetwork/matrixproductstates/infinite_mps.py:transfer_matrix_eigs", "tensornetwork/matrixproductstates/infinite_mps.py:unit_cell_transfer_operator", "tensornetwork/matrixproductstates/base_mps.py:apply_transfer_operator", "tensornetwork/matrixproductstates/base_mps.py:get_tensor"]}
{"id": "C59", "title": "add_fft applies the discrete Fourier transform to loose ends of a network", "statement": "On distinct binary dangling edges add_fft adds new nodes, keeps all other loose ends, and the vector on the edges that it returns (most significant first) is the discrete Fourier transform of the vector on the inputs: 2^(-n/2) times the sum of exp(-2 pi i X Y / 2^n) over the positions X. An input that is not dangling raises and changes nothing.", "quantifier": "all networks, any number of inputs on any of their nodes, all values of the other loose ends; over every commutative ring with a tower of square roots of -1, and for the complex numbers", "why_tests_cant": "The tests transform a few random vectors of fixed length and compare with numpy up to rounding; phases, bit order and twiddle factors of other lengths, and inputs spread over several nodes with further loose ends, are not covered.", "anchors": ["examples/fft/fft.py:add_fft"]}
{"id": "C60", "title": "The 3SAT networks mark and count satisfying assignments", "statement": "For clauses without 0 whose largest variable is n, sat_tn makes new nodes whose open edges are exactly the n returned edges (one per variable), and the value of that network at an assignment is 1 if it satisfies every clause and 0 otherwise. If clauses link all variables 1..n, sat_count_tn returns all new nodes and their value is the number of satisfying assignments. A 0 in a clause, or an empty problem, raises.", "quantifier": "all lists of clauses (repeated and negated variables included), all heaps that the new nodes are added to, every order in which Python iterates over sets, every commutative semiring of entries", "why_tests_cant": "The tests contract seven fixed problems with at most four variables, all of them linked; the number of assignments grows exponentially, so problems of real size cannot be compared with brute force.", "anchors": ["examples/sat/sat_tensornetwork.py:sat_tn", "examples/sat/sat_tensornetwork.py:sat_count_tn"]}
{"id": "C61", "title": "Operators, circuits and Trotter steps on dense wavefunctions", "statement": "apply_op gives the action of an operator on the sites n1, n1+1, ... (modulo the number of sites with pbc), with the sites in their order; expval is the inner product of psi with that result. apply_circuit applies the gates of all layers one after the other and raises when gates of one layer overlap. trotter_prepare_gates puts the exponential of the matrix of every term at its site, even numbers in the first layer and odd ones in the second; evolve_trotter applies these layers num_steps times, divides by the norm after each step if euclidean, and returns the sum of the steps.", "quantifier": "all numbers of sites, all (also unequal) site dimensions, all operators with as many inputs as outputs that fit, all layers, all numbers of steps, all heaps, every order in which Python iterates over sets, every commutative semiring with conjugation, every matrix function that depends only on the entries and keeps the shape, every norm and division", "why_tests_cant": "The tests use chains of equal dimension 2 with up to 12 sites and fixed Hamiltonians, and compare with tolerances that hide a permuted or conjugated leg of a symmetric operator.", "anchors": ["examples/wavefunctions/wavefunctions.py:apply_op", "examples/wavefunctions/wavefunctions.py:expval", "examples/wavefunctions/wavefunctions.py:apply_circuit", "examples/wavefunctions/wavefunctions.py:evolve_trotter", "examples/wavefunctions/trotter.py:trotter_prepare_gates"]}
{"id": "C62", "title": "from_topology makes exactly the network that its string names", "statement": "For a string of parts separated by commas and a list of tensors, from_topology returns new nodes with these tensors and the letters as axis names, in order, with one edge per letter that is dangling exactly if the letter stands once; the value of the network is the Einstein sum that the string names, and other nodes are unchanged. It succeeds exactly if there is one part per tensor, every letter has one dimension, stands at most once in a part and at most twice in all; otherwise it raises.", "quantifier": "all strings, all lists of tensors (also scalars and empty parts), all heaps the nodes are added to, every commutative semiring of entries", "why_tests_cant": "The test builds a single triangle of three ones tensors with equal dimensions and checks the shapes.", "anchors": ["tensornetwork/utils.py:from_topology"]}
{"id": "C63", "title": "check_orthonormality and check_canonical measure the distance from canonical form", "statement": "check_orthonormality returns the Frobenius distance of the Gram matrix of the tensor at a site (connector matrix absorbed into the last one) from the identity, and raises for sites out of range and other values of which; check_canonical returns the root of the sum of the squared distances over all sites except the centre. The values vanish exactly if the tensor is a left (right) isometry, and exactly if the chain is canonical about its centre; so a canonical chain passes the check after position. Without a centre FiniteMPS raises and BaseMPS returns None.", "quantifier": "all chains of at least two sites with matching bonds, all centres, with or without a connector matrix, every semiring with conjugation, subtraction and roots of sums of squares", "why_tests_cant": "The tests run the check on a few random states brought into canonical form, and never on a state that is nearly canonical or whose failing tensor is at the last site with a connector matrix.", "anchors": ["tensornetwork/matrixproductstates/base_mps.py:BaseMPS.check_orthonormality", "tensornetwork/matrixproductstates/base_mps.py:BaseMPS.check_canonical", "tensornetwork/matrixproductstates/finite_mps.py:FiniteMPS.check_canonical"]}
{"id": "C64", "title": "Indices of block-sparse tensors fuse, flip and compare by their charges; products of symmetries fuse factor by factor", "statement": "fuse_indices of a nonempty list has the product dimension, and its charges are the outer product (row major) of the charges of the indices, flows included; flip_flow inverts every charge and is an involution; Index.__eq__ implies equal elementary charges and flows, holds for copies, and for charges stored in order it holds exactly then. The product @ of two charges goes with fusion and duals, (a@b)+(c@d) = (a+c)@(b+d).", "quantifier": "all lists of indices with one flow per charge, labelled or unlabelled charges over every abelian group with a total order; all rows of U1, Z2 and ZN charges", "why_tests_cant": "The tests fuse two or three random U1 indices, and compare indices of one symmetry only.", "anchors": ["tensornetwork/block_sparse/index.py:fuse_index_pair", "tensornetwork/block_sparse/index.py:fuse_indices", "tensornetwork/block_sparse/index.py:Index.flip_flow", "tensornetwork/block_sparse/index.py:Index.charges", "tensornetwork/block_sparse/index.py:Index.__eq__", "tensornetwork/block_sparse/charge.py:BaseCharge.__matmul__"]}
{"id": "C65", "title": "to_graphviz draws the network", "statement": "to_graphviz writes one vertex per given node, in order, and then every edge with an end at one of the nodes exactly once: between its two nodes, or, if it dangles, between its node and an invisible vertex of its own. The number of edge ends drawn at a node is the rank of its tensor. If the neighbours are given too, all edges end at declared vertices. Labels are the names, generated ones dropped unless asked for. The network is unchanged.", "quantifier": "all well-formed networks (trace edges, multiple and dangling edges included), all lists of nodes, all names, all graphs to append to", "why_tests_cant": "The test draws one network of two nodes and compares nothing but that it runs.", "anchors": ["tensornetwork/visualization/graphviz.py:to_graphviz"]}
{"id": "C66", "title": "The MERA updates give the isometry with the largest contraction with its environment", "statement": "update_iso and update_dis return the conjugate of U V of the singular value decomposition of the environment: an isometry from the upper to the lower axes when the environment has no more columns than rows; its contraction with the environment is the sum of the singular values; no isometry has a larger real part of the contraction, and none a smaller one than the negative of the result. shift_ham subtracts a multiple of the identity, by default the largest eigenvalue, after which all expectation values are at most zero.", "quantifier": "all environments of any shape and pivot, all isometries to compare with, all Hamiltonians on three sites of dimension two, over every field with conjugation and order (rationals, reals, complex numbers)", "why_tests_cant": "The tests check the energy of one optimisation run; optimality is a statement about all isometries.", "anchors": ["examples/simple_mera/simple_mera.py:update_iso", "examples/simple_mera/simple_mera.py:update_dis", "examples/simple_mera/simple_mera.py:shift_ham"]}
{"id": "C67", "title": "Products of labelled tensors do not depend on brackets or order", "statement": "finalize of an expression made of A(labels) and @ returns the Tensor whose entries are the sums of products that the labels describe, over the backend of the factors; expressions with the same labelled tensors in any order and with any brackets give equal results; factors of different backends raise an error. H and hconj() conjugate and reverse the axes and are involutions, hconj(perm) conjugates and permutes.", "quantifier": "all expressions of any size and shape, all tensors over every commutative ring with conjugation, all labels (numbers and strings), all iteration orders of python sets", "why_tests_cant": "The tests evaluate three small products; independence of the order is a statement about pairs of expressions.", "anchors": ["tensornetwork/tensor.py:__call__", "tensornetwork/tensor.py:__matmul__", "tensornetwork/tensor.py:H", "tensornetwork/tensor.py:conj", "tensornetwork/tensor.py:hconj", "tensornetwork/ncon_interface.py:finalize"]}
{"id": "C68", "title": "The symmetric XXZ operator equals the dense one and conserves magnetisation", "statement": "blocksparse_XXZ_mpo succeeds whenever FiniteXXZ does; its block-sparse tensors have exactly the entries of the dense ones (no entry is dropped by the choice of charges), neighbouring tensors have matching charges and opposite flows, and the contracted chain is the XXZ Hamiltonian. The Hamiltonian has no matrix element between states with different numbers of up spins.", "quantifier": "all chain lengths, all couplings and fields, over every commutative semiring with any elements for 1/2 and -1, all pairs of basis states", "why_tests_cant": "The example has no test of its operator; a wrong charge would silently drop couplings, for chains of every length.", "anchors": ["examples/dmrg/symmetric_dmrg.py:blocksparse_XXZ_mpo", "tensornetwork/block_sparse/blocksparsetensor.py:fromdense", "tensornetwork/matrixproductstates/mpo.py:FiniteXXZ"]}
{"id": "C69", "title": "The Ising Hamiltonians of the examples are the Ising model", "statement": "The terms of ising_hamiltonian(N), each acting on its pair of neighbouring sites, add up to -sum X_n X_n+1 - sum Z_n on N sites: every field term occurs exactly once, including the last site. There is one term of shape (2,2,2,2) for each pair, as the Trotter evolution needs. ham_ising has the matrix elements of X Z X - (X X 1 + 1 X X)/2 on three spins.", "quantifier": "all numbers of sites from two, all wavefunctions and basis states, over every commutative semiring with any elements for 1/2 and -1", "why_tests_cant": "The tests use one size; a term missing at the end of the chain changes results only slightly.", "anchors": ["examples/wavefunctions/evolution_example.py:ising_hamiltonian", "examples/simple_mera/simple_mera.py:ham_ising"]}
{"id": "C70", "title": "Rolling an infinite matrix product operator renumbers the sites of the ring", "statement": "InfiniteMPO.roll(k) with 0 <= k <= length moves the first k tensors to the end and raises for larger k; rolling on by the rest gives the operator back. The operator on a ring has the same matrix elements with the sites renumbered. If the bond dimensions fit around the ring they still do, and the constructor accepts the result. Negative k repeats the last tensors in front of the whole list.", "quantifier": "all lists of tensors of any length and shapes over every commutative semiring, all numbers of sites, all pairs of basis states", "why_tests_cant": "The test rolls one operator of two sites by one; the contraction on a ring, larger and negative numbers are not tested.", "anchors": ["tensornetwork/matrixproductstates/mpo.py:roll", "tensornetwork/matrixproductstates/mpo.py:InfiniteMPO", "tensornetwork/matrixproductstates/mpo.py:bond_dimensions"]}
{"id": "C71", "title": "switch_backend converts every node once or stops at the first one that is not of numpy", "statement": "For distinct nodes switch_backend succeeds exactly when the new backend is tensorflow, numpy, jax or pytorch and all nodes are of numpy, or when it is symmetric and all nodes are symmetric already. On success every node of the list has the new backend and its array converted once, and no other node changes. An exception for an unknown or the symmetric backend changes nothing; otherwise the nodes before the first one that is not of numpy are switched and the others unchanged.", "quantifier": "all lists of distinct nodes, all names of backends, all nodes outside the list, all conversions", "why_tests_cant": "The tests switch a few nodes and do not look at the nodes after an exception or at repeated nodes.", "anchors": ["tensornetwork/network_operations.py:switch_backend", "tensornetwork/backends/backend_factory.py:get_backend"]}
{"id": "C72", "title": "The best partition is the most levelled one, and strides give linear positions in every order of the axes", "statement": "For two or more dimensions _find_best_partition returns an inner partition for which the products of the two sides differ least, among equals the one with the larger right side and then the first; for fewer it raises. _get_strides of one or more dimensions gives for each axis the product of the later dimensions. fuse_stride_arrays with these strides gives 0, 1, 2, ...; with dimensions and strides in any other order of the axes it gives for every element of the transposed tensor its position in the tensor.", "quantifier": "all lists of dimensions (nonzero for the positions), all permutations of the axes, all index tuples", "why_tests_cant": "The tests compare a few random shapes, without ties of the partition and without axes of dimension 1 or 0.", "anchors": ["tensornetwork/block_sparse/utils.py:_find_best_partition", "tensornetwork/block_sparse/utils.py:_get_strides", "tensornetwork/block_sparse/utils.py:fuse_stride_arrays", "tensornetwork/block_sparse/utils.py:fuse_ndarrays"]}
{"id": "C73", "title": "krylov_error_checks accepts exactly Tensors of the backend and returns their arrays", "statement": "krylov_error_checks succeeds exactly when the backend is given and known, or is not given and x0 is; x0, if given, is a Tensor of this backend; and all args are Tensors. It then returns the backend, the array of x0 and the arrays of args in order. An unknown backend, none at all, or another one than that of x0 is a ValueError; an x0 that is not a Tensor with a known backend, and args that are not all Tensors, are TypeErrors.", "quantifier": "all backends, all x0 and args, Tensors or not", "why_tests_cant": "The tests try single wrong arguments; they do not try args of another backend or a wrong x0 without backend.", "anchors": ["tensornetwork/linalg/krylov.py:krylov_error_checks", "tensornetwork/backends/backend_factory.py:get_backend"]}
{"id": "C74", "title": "expand undoes collapse, and collapse keeps different rows different", "statement": "For numbers of 1, 2, 4 or 8 bytes and rows of one or more numbers and at most 8 bytes, collapse turns an array of no or at least two rows into one number per row of the smallest dtype with room for it, equal numbers come from equal rows, and expand gives the array back. Wider rows are left as they are by both.", "quantifier": "all arrays of rows of every width, every size of the numbers and all bytes", "why_tests_cant": "The tests try random arrays of some widths; padding, byte sizes and few rows are combined in many ways.", "anchors": ["tensornetwork/block_sparse/utils.py:collapse", "tensornetwork/block_sparse/utils.py:expand", "tensornetwork/block_sparse/utils.py:get_dtype"]}
{"id": "C75", "title": "A node answers queries by axis with the axis of that number or the first of that name", "statement": "get_dimension of a node gives the dimension of the axis with the given number, or of the first axis with the given name, and raises for every other number or name. get_all_dangling and get_all_nondangling give exactly the edges of the node of the two kinds, and has_dangling_edge and has_nondangling_edge tell whether there are any.", "quantifier": "all nodes, all integer and named axes, all sets of dangling edges", "why_tests_cant": "The tests query small nodes by valid axes; repeated names and all numbers out of range are not tried.", "anchors": ["tensornetwork/network_components.py:AbstractNode.get_dimension", "tensornetwork/network_components.py:AbstractNode.get_axis_number", "tensornetwork/network_components.py:AbstractNode.has_dangling_edge", "tensornetwork/network_components.py:AbstractNode.has_nondangling_edge", "tensornetwork/network_components.py:AbstractNode.get_all_dangling", "tensornetwork/network_components.py:AbstractNode.get_all_nondangling"]}
