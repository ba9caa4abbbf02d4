{
 "claims": [
  {
   "property": "C01",
   "status": "proved",
   "theorems": [
    "C01_contract_between",
    "C01_contract_edge",
    "C01_contract_parallel",
    "C01_contract_between_total",
    "C01_contract_edge_total",
    "C01_contract_parallel_total"
   ],
   "note": "contract_between, contract on one edge, contract_parallel: value of every surrounding network unchanged, exact edge list of the result. Stated for calls that return; @ is contract_between. That the calls succeed is proved in P_Total.v for well-formed networks whose nodes have a name per axis."
  },
  {
   "property": "C02",
   "status": "proved",
   "theorems": [
    "C02_schedule_value",
    "C02_schedule_independence"
   ],
   "note": "any two sequences of contract/contract_between/contract_parallel/outer_product that reduce a network to one node give the Einstein sum."
  },
  {
   "property": "C03",
   "status": "proved",
   "theorems": [
    "C03_trace_edge",
    "C03_trace_tensor",
    "C03_all_traces",
    "C03_contract_trace_edges",
    "C03_trace_edge_total"
   ],
   "note": "single trace edge, all trace edges of a node, contract_trace_edges. That the calls succeed is proved in P_Total.v for well-formed networks whose nodes have a name per axis."
  },
  {
   "property": "C04",
   "status": "proved",
   "theorems": [
    "C04_outer_product",
    "C04_outer_product_final_nodes",
    "C04_outer_product_total",
    "outer_product_self_refuted"
   ],
   "note": "outer_product of two different nodes, outer_product_final_nodes of any number of nodes. outer_product(n,n) refuted. That the calls succeed is proved in P_Total.v for well-formed networks whose nodes have a name per axis."
  },
  {
   "property": "C05",
   "status": "proved",
   "theorems": [
    "C05_flatten_edges_between",
    "C05_flatten_shared",
    "C05_flatten_dangling",
    "C05_flatten_structure",
    "C05_flatten_edges_total"
   ],
   "note": "shared, trace and dangling edges; flatten_edges_between; flatten_all_edges is modelled as calls of flatten_edges_between without a theorem of its own. That the calls succeed is proved in P_Total.v for well-formed networks whose nodes have a name per axis."
  },
  {
   "property": "C06",
   "status": "proved",
   "theorems": [
    "C06_split_shared",
    "C06_split_dangling",
    "C06_split_structure",
    "C06_flatten_split",
    "split_trace_names_refuted"
   ],
   "note": "value law, structure and entrywise round trip; axis names after splitting a trace edge refuted."
  },
  {
   "property": "C07",
   "status": "proved",
   "theorems": [
    "C07_history_copy",
    "C07_check_correct",
    "C07_history",
    "C07_invariant",
    "C07_meaning",
    "connect_stale_refuted",
    "outer_product_self_refuted",
    "reorder_edges_repeat_refuted",
    "split_trace_contract_refuted"
   ],
   "note": "histories of new nodes, connect, disconnect, all contractions, outer products, flatten, split, reorder, remove_node, copy and reduced_density, for edge handles taken from nodes; check_correct accepts well-formed networks; stale handles and calls that raise are refuted."
  },
  {
   "property": "C08",
   "status": "proved",
   "theorems": [
    "C08_reorder_axes",
    "C08_reorder_edges",
    "C08_reorder_edges_total",
    "C08_reorder_axes_total",
    "reorder_edges_repeat_refuted"
   ],
   "note": "reorder_axes and reorder_edges; repeated edges in reorder_edges corrupt the node before raising (refuted). That the calls succeed is proved in P_Total.v for well-formed networks whose nodes have a name per axis."
  },
  {
   "property": "C09",
   "status": "proved",
   "theorems": [
    "C09_connect_iff",
    "C09_connect_reject",
    "C09_connect_effect",
    "C09_connect_disconnect",
    "C09_disconnect_effect"
   ],
   "note": "exact success condition, no change on rejection, inverse, value laws."
  },
  {
   "property": "C10",
   "status": "proved",
   "theorems": [
    "C10_copy",
    "C10_copy_outside",
    "C10_copy_value",
    "C10_replicate_nodes",
    "copy_trace_edge_dict_refuted"
   ],
   "note": "copy and replicate_nodes of distinct nodes whose axis names match their rank (otherwise the call raises). The edge_dict entry of a trace edge is not installed anywhere (refuted). CopyNode.copy is not modelled."
  },
  {
   "property": "C11",
   "status": "proved",
   "theorems": [
    "C11_reachable",
    "C11_reachable_edge",
    "C11_connected_equivalence",
    "C11_check_connected"
   ],
   "note": "reachable (from nodes or an edge) terminates and returns exactly the connected component; check_connected."
  },
  {
   "property": "C12",
   "status": "proved",
   "theorems": [
    "C12_split_node_qr",
    "C12_split_node_rq",
    "C12_split_node",
    "C12_split_node_full_svd",
    "C12_split_rejects"
   ],
   "note": "all four split functions succeed on every division of the edges of a node without trace edges, value unchanged (for SVD: network with the tensor of the kept dyads; equal if the dropped values are zero); other edge lists rejected. Matrix decompositions are oracles with contracts is_qr / is_svd."
  },
  {
   "property": "C13",
   "status": "proved",
   "theorems": [
    "C13_svd_factors",
    "C13_svd_product",
    "C13_svd_remainder",
    "C13_truncation",
    "C13_truncation_total",
    "C13_truncation_largest"
   ],
   "note": "kept values are a prefix; minimal number for the error bound, maximal number respected, error of the discarded part; product of factors plus remainder of the norm of the discarded values. Matrix SVD is an oracle with contract is_svd."
  },
  {
   "property": "C14",
   "status": "proved",
   "theorems": [
    "C14_qr",
    "C14_rq",
    "C14_qr_exact",
    "C14_shapes",
    "C14_zero_diagonal_refuted",
    "C14_tensorflow_phases_refuted"
   ],
   "note": "for nonzero diagonals (and always without phase fixing); exact value in general; zero diagonals and the unconjugated phases of tensorflow/pytorch refuted."
  },
  {
   "property": "C15",
   "status": "proved",
   "theorems": [
    "C15_tensordot2",
    "C15_tensordot2_int",
    "C15_tensordot2_int_range",
    "C15_numpy",
    "C15_numpy_negative",
    "C15_numpy_mixed_refuted",
    "C15_numpy_rank0_refuted",
    "C15_numpy_letters_refuted",
    "C15_tensordot2_dims_refuted"
   ],
   "note": "both implementations equal the contraction; axes of mixed sign in the numpy einsum path refuted."
  },
  {
   "property": "C16",
   "status": "proved",
   "theorems": [
    "C16_ncon_einsum",
    "C16_ncon_total",
    "two_single_labels_refuted"
   ],
   "note": "ncon returns and equals the Einstein sum for every standard network (any backend order of set iteration); also networks with open batch labels and summed labels of one tensor."
  },
  {
   "property": "C17",
   "status": "proved",
   "theorems": [
    "C17_con_order"
   ],
   "note": "also for networks with batch labels, for calls that return."
  },
  {
   "property": "C18",
   "status": "proved",
   "theorems": [
    "C18_out_order",
    "C18_rename",
    "C18_rename_default"
   ],
   "note": "out_order and injective renamings; default order for monotone renamings."
  },
  {
   "property": "C19",
   "status": "proved",
   "theorems": [
    "C19_rejects",
    "C19_accepts",
    "C19_check_network",
    "open_sizes_unchecked_refuted",
    "two_single_labels_refuted",
    "only_batch_refuted"
   ],
   "note": "check_network is equivalent to the documented validity; malformed structures raise; valid documented structures return. Sizes of open batch labels are not compared by the code (refuted)."
  },
  {
   "property": "C20",
   "status": "proved",
   "theorems": [
    "C20_batch_value",
    "only_batch_refuted",
    "batch_trace_refuted",
    "open_label_traced_refuted"
   ],
   "note": "value of every call that returns; networks contracted over batch labels only raise, and labels repeated on one tensor are traced (refuted)."
  },
  {
   "property": "C21",
   "status": "proved",
   "theorems": [
    "C21_tensor",
    "C21_contract",
    "C21_succeeds",
    "C21_bucket",
    "C21_neighbour_edges_refuted",
    "C21_trace_only_refuted",
    "C21_bucket_adjacent_refuted"
   ],
   "note": "Any rank and dimension, trace edges, several edges to one neighbour, neighbours joined with each other; value of every network containing the copy tensor and its neighbours; exact condition for success; the bucket contractor for any sequence of non-adjacent copy tensors. The heap is well-formed without the used-up neighbours (see refutation)."
  },
  {
   "property": "C22",
   "status": "proved",
   "theorems": [
    "C22_slice_edge",
    "C22_whole_range",
    "C22_slice_edge_rejects",
    "C22_negative_start_refuted",
    "C22_below_range_refuted"
   ],
   "note": "all edges, all starts and lengths; a negative start selecting up to the end yields dimension 0 and a start below -dimension is accepted (refuted)."
  },
  {
   "property": "C23",
   "status": "proved",
   "theorems": [
    "C23_base",
    "C23_path_independent",
    "C23_reject",
    "C23_ambiguous",
    "C23_auto",
    "C23_auto_one",
    "C23_contract_path",
    "C23_auto_one_outside_refuted",
    "C23_auto_one_swallows_refuted",
    "C23_auto_one_ignore_refuted",
    "C23_contract_path_trace_refuted"
   ],
   "note": "base (hence optimal, branch, greedy, custom) for every well-formed network with one name per axis, every algorithm returning a valid path, every set order; auto for two or more nodes and for an isolated single node; contract_path without trace edges. The remaining cases are refuted. contract_path on one node, with an empty path or with one-element path entries is not modelled."
  },
  {
   "property": "C24",
   "status": "proved",
   "theorems": [
    "C24_group",
    "C24_values",
    "C24_fuse_charges",
    "ZN_large_refuted",
    "U1_wrap_refuted"
   ],
   "note": "int16 arithmetic with wrap-around; group laws for U1, Z2, ZN (n <= 16384) and products, flow sign and fusion of any number of legs. ZN with n > 16384 refuted."
  },
  {
   "property": "C25",
   "status": "proved",
   "theorems": [
    "C25_unique",
    "C25_unique_index",
    "C25_intersect",
    "C25_reduce",
    "C25_getitem",
    "C25_fuse_dual",
    "C25_equal",
    "charge_equal_refuted",
    "unused_uniques_refuted",
    "reduce_unused_refuted"
   ],
   "note": "unique, intersect, reduce, getitem, fuse, dual, equality on both representations; equality is complete only for sorted representations (refuted otherwise)."
  },
  {
   "property": "C26",
   "status": "proved",
   "theorems": [
    "C26_num_nonzero",
    "C26_constructors",
    "C26_row_major"
   ],
   "note": "For every abelian charge group, both charge representations and both degeneracy algorithms. int16 labels and sizes beyond machine integers are not modelled."
  },
  {
   "property": "C27",
   "status": "proved",
   "theorems": [
    "C27_sparse_dense_sparse",
    "C27_dense_sparse_dense",
    "C27_total",
    "C27_forbidden_zero"
   ],
   "note": "A tensor whose legs are in storage order is recovered exactly; otherwise the recovered tensor has the same dense form in the new storage order. Tensors without legs are excluded (see C30_scalar_todense_refuted)."
  },
  {
   "property": "C28",
   "status": "proved",
   "theorems": [
    "C28_blocks"
   ],
   "note": "Plain and transposed matricisations, all leg permutations and splits, including empty row or column sides."
  },
  {
   "property": "C29",
   "status": "proved",
   "theorems": [
    "C29_transpose",
    "C29_contiguous"
   ],
   "note": "transpose (lazy), contiguous to the current order and to any given order; compositions follow since results are well formed again."
  },
  {
   "property": "C30",
   "status": "proved",
   "theorems": [
    "C30_tensordot",
    "C30_sound",
    "C30_scalar_todense_refuted",
    "C30_scalar_product_refuted",
    "C30_shape_check_refuted",
    "C30_representation_refuted"
   ],
   "note": "Success and correctness under the stated compatibility, and correctness whenever the call returns (distinct axes, equal grouped dimensions). Negative axes are not modelled. Scalar results: todense has shape (1,) instead of () (refuted), products of two scalars raise (refuted), equal charges in different label representations are refused (refuted)."
  },
  {
   "property": "C31",
   "status": "proved",
   "theorems": [
    "C31_faithful",
    "C31_succeeds_iff",
    "C31_empty_shape_refuted"
   ],
   "note": "Succeeds exactly for groupable shapes (no zero dimension, non-empty target shape); reshape to () loses the legs (refuted)."
  },
  {
   "property": "C32",
   "status": "partial",
   "theorems": [
    "C32_key",
    "C32_one_symmetry_partial",
    "C32_mixed_symmetries_refuted",
    "C32_number_of_symmetries_refuted"
   ],
   "note": "The cache key (python repr of the bytes of charges, flows and order) is modelled character by character and shown to determine the arguments; computations over tensors of one symmetry are unaffected by the cache under any switching and clearing. The claim for computations mixing symmetries is false (refuted): the key contains neither the charge type nor the number of symmetries."
  },
  {
   "property": "C33",
   "status": "proved",
   "theorems": [
    "C33_truncation",
    "C33_svd",
    "C33_svd_total",
    "C33_matrix",
    "C33_padding_refuted",
    "C33_zero_refuted",
    "C33_dimension_one_refuted"
   ],
   "note": "Truncation over the reals, the decomposition of tensors of every rank, with the contract of numpy svd on the blocks as hypothesis. Reading of the scope: positive max_singular_values; without an error bound it lies within the positive singular values or covers all. Outside this scope padding is kept (refuted). Success needs the last left leg to have a dimension other than one (refuted otherwise)."
  },
  {
   "property": "C34",
   "status": "proved",
   "theorems": [
    "C34_position",
    "C34_sweep",
    "C34_position_total",
    "C34_init",
    "C34_init_total",
    "C34_canonicalize",
    "C34_norm",
    "C34_normalised"
   ],
   "note": "position, FiniteMPS(...), canonicalize for chains of every length and all dimensions. The matrix factorisations (which may raise) enter by their contract, the norm by definiteness, division as inverse of multiplication. Arrays are values: sharing with the caller is not modelled. C34_norm, C34_normalised: the norm of a canonical state is that of its centre tensor, and one after normalising."
  },
  {
   "property": "C35",
   "status": "partial",
   "theorems": [
    "C35_one_site",
    "C35_one_site_canonical",
    "C35_two_site",
    "C35_two_site_canonical",
    "C35_two_site_elsewhere",
    "C35_two_site_total",
    "C35_two_site_centre_refuted",
    "C35_one_site_centre_refuted"
   ],
   "note": "Both gates multiply the state by the gate. The recorded centre is right for one-site gates at the centre or isometric ones and for two-site gates with truncation arguments; without them the recorded centre is the wrong one of the two sites (refuted), and the true centre is proved."
  },
  {
   "property": "C36",
   "status": "proved",
   "theorems": [
    "C36_left_envs",
    "C36_right_envs",
    "C36_local",
    "C36_two_body",
    "C36_order_refuted",
    "C36_out_of_range_refuted"
   ],
   "note": "left_envs, right_envs, measure_local_operator and measure_two_body_correlator against the full contraction, for chains of every length and all dimensions, any set of sites, with or without a recorded centre. Results come in ascending order of the set of sites; that the order of the argument is ignored, and sites out of range accepted, is recorded by the refutations."
  },
  {
   "property": "C37",
   "status": "proved",
   "theorems": [
    "C37_xxz",
    "C37_tfi",
    "C37_one_site_refuted",
    "C37_one_site_no_coupling_refuted"
   ],
   "note": "FiniteXXZ and FiniteTFI for every N >= 2, all couplings and every matrix element; the scalars are an arbitrary commutative semiring with constants for 1/2 and -1. For one site the constructors give a two-site operator or raise (refuted)."
  },
  {
   "property": "C38",
   "status": "proved",
   "theorems": [
    "C38_history",
    "C38_complete",
    "C38_one_site",
    "C38_two_sites",
    "C38_run_one_site",
    "C38_run_two_site",
    "C38_energy",
    "C38_run_one_site_total",
    "C38_run_two_site_total",
    "C38_isometry",
    "C38_finite",
    "C38_two_sites_of_one_refuted",
    "C38_fresh_position_refuted",
    "C38_end_update_refuted"
   ],
   "note": "Histories of position, one-site and two-site updates (either direction, with truncation), compute_left_envs, compute_right_envs and starts of runs, in any order, on chains of every length and all dimensions with arbitrary boundaries; whole runs, compute_energy and their success. QR, SVD and eigensolver enter by contracts (they may raise). One-site updates need outer bonds of dimension at most 1 (see refutation). Convergence of the eigensolver is no part of the property."
  },
  {
   "property": "C39",
   "status": "proved",
   "theorems": [
    "C39_product",
    "C39_product_spaces",
    "C39_adjoint",
    "C39_tensor_product",
    "C39_partial_trace",
    "C39_partial_trace_spaces",
    "C39_trace",
    "C39_scalar_multiple",
    "C39_scalar_multiple_left",
    "C39_scalar_multiple_tensor",
    "C39_multiple_of_operators",
    "C39_multiple_by_array",
    "C39_identity",
    "C39_from_tensor",
    "C39_vector_from_tensor",
    "C39_adjoint_vector_from_tensor",
    "C39_norm",
    "C39_projector",
    "C39_reduced_density",
    "C39_construct",
    "C39_construct_repeated_edge_refuted",
    "C39_identity_empty_refuted",
    "C39_adjoint_trace_copy_refuted",
    "C39_partial_trace_repeated_refuted"
   ],
   "note": "For all operators given by any network (ignored edges, reference nodes and CopyNodes included) and any iteration order of sets: each operation succeeds exactly under the stated conditions, gives a new operator with the entries of linear algebra, and leaves all existing nodes and edges unchanged; norm, projector, reduced density, from_tensor and the constructor as well. Hypothesis copyable excludes CopyNodes with a backward trace edge (refuted otherwise)."
  },
  {
   "property": "C40",
   "status": "proved",
   "theorems": [
    "C40_eliminate",
    "C40_simplify",
    "C40_simplify_sound",
    "C40_contract",
    "C40_contract_sound",
    "C40_eval",
    "C40_eval_sound",
    "C40_eval_matrix",
    "C40_chain_of_identities_refuted",
    "C40_product_of_three_identities_refuted",
    "C40_scalar_loop_refuted",
    "C40_scalar_factor_refuted"
   ],
   "note": "For every network, every iteration order of the node set and every contractor: eliminate_identities keeps all values of the network (its loose ends renamed), removes identities only and leaves none inside; contract and eval return the same operator whenever they return (reference nodes linked), and they do return when no identity with a loose leg is joined to one without (paired). Outside these hypotheses refuted: chains of identities raise depending on the order of a set, and scalar factors referred to by a removed identity are silently lost."
  },
  {
   "property": "C41",
   "status": "proved",
   "theorems": [
    "C41_json",
    "C41_json_copy",
    "C41_sound",
    "C41_file",
    "C41_file_order",
    "C41_save_effect",
    "C41_save_names_refuted",
    "C41_file_order_refuted",
    "C41_file_scalar_refuted",
    "C41_json_first_end_refuted",
    "C41_json_twice_refuted"
   ],
   "note": "For every sound network, in any heap: JSON round trip (any sub-collection of nodes with tensors, edges leaving it included, with the dictionary of edges) and file round trip (any closed collection of nodes of rank >= 1, copy nodes included, any order of keys) give a copy: tensors, names, axis names, backends, edge names, connectivity. Effect of saving on the live network stated exactly; renamed edges, order, rank 0, excluded first ends refuted."
  },
  {
   "property": "C42",
   "status": "proved",
   "theorems": [
    "C42_balanced",
    "C42_backend_block",
    "C42_collection_block",
    "C42_set_refused",
    "C42_lexical",
    "C42_lexical_from",
    "C42_innermost",
    "C42_initialize_node_refuted",
    "C42_collection_default_refuted"
   ],
   "note": "Runs are programs over with-blocks, exceptions, handlers, set_default_backend, node creation and queries; the stacks are shown to implement lexical scoping. A NodeCollection block alone does not restore the default backend when set_default_backend is called inside it (refuted literal reading); node_linalg.eye/zeros/... without a backend argument raise whenever the default is a name."
  },
  {
   "property": "C43",
   "status": "proved",
   "theorems": [
    "C43_greedy_size",
    "C43_greedy_cost",
    "C43_full",
    "C43_adj",
    "C43_ord_to_ncon",
    "C43_ncon_solver",
    "C43_logs",
    "C43_optimal_refuted",
    "C43_greedy_cost_ones_refuted",
    "C43_ncon_ones_refuted",
    "C43_single_refuted",
    "C43_tags_refuted"
   ],
   "note": "Both greedy solvers and the search, for any symmetric non-negative matrix (search: up to 64 tensors): complete orders, exact costs, minimality of the search over all orders without avoidable outer products (over all orders it is false, see refutation). ncon_to_adj and ord_to_ncon for any labelled network; every internal label exactly once."
  },
  {
   "property": "C44",
   "status": "proved",
   "theorems": [
    "C44_reshape",
    "C44_reshape_size",
    "C44_reshape_infer",
    "C44_reshape_same",
    "C44_reshape_back",
    "C44_transpose",
    "C44_transpose_none",
    "C44_transpose_only",
    "C44_transpose_compose",
    "C44_transpose_inverse",
    "C44_pivot",
    "C44_pivot_bad",
    "C44_kron",
    "C44_kron_odd",
    "C44_node_kron",
    "C44_kron_backends_refuted",
    "C44_reshape_large_refuted"
   ],
   "note": "numpy reshape (with one unknown dimension and the int32 cast), transpose, pivot, linalg.operations.kron and node_linalg.kron. Dimensions below 2^31 are a hypothesis of the reshape theorems; above, reshape is refuted. operations.kron does not compare backends (refuted)."
  },
  {
   "property": "C45",
   "status": "proved",
   "theorems": [
    "C45_remove_node",
    "C45_redirect_edge",
    "C45_redirect_trace_edge",
    "C45_redirect_reject",
    "redirect_edge_dim_refuted",
    "redirect_edge_override_refuted"
   ],
   "note": "remove_node for nodes whose axis names match the rank; redirect_edge of ordinary, dangling and trace edges onto dangling axes of equal dimensions of another node, and its rejection (nothing changed) of edges that do not end at the old node. The code itself checks neither that the new axes dangle nor that dimensions agree: without these hypotheses the statement is false (refuted)."
  },
  {
   "property": "C46",
   "status": "proved",
   "theorems": [
    "C46_sums",
    "C46_sums_succeed",
    "C46_scalars",
    "C46_conj",
    "C46_representation_refuted"
   ],
   "note": "Any two storage orders; operands keep their value but may change their storage layout in place. Equal charges in different label representations are refused (refuted)."
  },
  {
   "property": "C47",
   "status": "proved",
   "theorems": [
    "C47_reduced_density",
    "C47_reduced_density_reject"
   ],
   "note": "any non-empty list of distinct dangling edges; non-dangling edges are rejected without change."
  },
  {
   "property": "C48",
   "status": "proved",
   "theorems": [
    "C48_get_shared_edges",
    "C48_get_parallel_edges",
    "C48_get_parallel_dangling",
    "C48_get_all_nondangling",
    "C48_get_all_dangling",
    "C48_get_all_edges",
    "C48_get_all_nodes",
    "C48_get_subgraph_dangling",
    "C48_get_neighbors"
   ],
   "note": "all edge and node queries, for every iteration order of the sets."
  },
  {
   "property": "C49",
   "status": "proved",
   "theorems": [
    "C49_factorisation",
    "C49_ritz_pairs",
    "C49_exact",
    "C49_reorthogonalize",
    "C49_total",
    "C49_reject",
    "C49_operator_returning_its_argument_refuted",
    "C49_initial_state_unchanged_refuted",
    "C49_numeig_pairs_refuted",
    "C49_lowest_eigenvalue_refuted",
    "C49_zero_state_refuted"
   ],
   "note": "For every field with conjugation and partial square root, every inner product space and every Hermitian operator that does not return its argument array (refuted otherwise): factorisation, orthonormal Ritz pairs with residual bound and Rayleigh-quotient characterisation, exactness on invariant Krylov spaces, totality, rejections. numpy eigh is a parameter with its contract as hypothesis."
  },
  {
   "property": "C50",
   "status": "proved",
   "theorems": [
    "C50_restart",
    "C50_first_restart",
    "C50_exact",
    "C50_reject",
    "C50_rotation",
    "C50_solves",
    "C50_restart_worse_refuted",
    "C50_solution_lost_refuted",
    "C50_info_refuted",
    "C50_scaled_rotation_refuted",
    "C50_maxiter0_refuted",
    "C50_tolerance_refuted",
    "C50_complex_refuted"
   ],
   "note": "Real fields, linear operators, exact arithmetic: minimal residual of each restart over the Krylov space of its own residual, added to x0; with maxiter = 1 the residual bound, exactness on invariant spaces, solution of every injective n x n system with n Krylov vectors, rejections. Hypothesis not_dropped: the threshold of the Arnoldi step replaced no independent vector (refuted without). More than one restart, complex operators, info and the documented tolerance are refuted."
  },
  {
   "property": "C51",
   "status": "proved",
   "theorems": [
    "C51_arnoldi",
    "C51_lanczos_fact",
    "C51_continue",
    "C51_shifted_qr",
    "C51_eigs",
    "C51_eigsh",
    "C51_reject",
    "C51_sort",
    "C51_check_eig",
    "C51_check_eigh",
    "C51_spurious_zero_refuted",
    "C51_small_space_refuted",
    "C51_converged_refuted",
    "C51_invariant_flag_refuted",
    "C51_residual_refuted",
    "C51_short_state_refuted",
    "C51_all_vectors_refuted"
   ],
   "note": "Exact arithmetic over any field with conjugation and square roots where defined. Factorisations (from scratch: basis of the Krylov space; continued), shifted QR steps, sorting, and the results of eigs / eigsh for 0 < numeig < num_krylov_vecs, for every number of restarts, as long as no residual norm equals tol exactly (r_tie). Contracts of qr (Q of a Hessenberg matrix is Hessenberg) and eig / eigh are hypotheses. Refuted: padding zeros returned as eigenvalues, the convergence test of eigs, the flag for norm = tol, numeig = num_krylov_vecs, short initial states."
  },
  {
   "property": "C52",
   "status": "proved",
   "theorems": [
    "C52_norm",
    "C52_elementwise",
    "C52_eye",
    "C52_eye_rectangular",
    "C52_diagflat",
    "C52_diagonal",
    "C52_diagonal_rectangular",
    "C52_broadcast_right",
    "C52_broadcast_left",
    "C52_qr",
    "C52_qr_r",
    "C52_eig",
    "C52_inv",
    "C52_inv_raises",
    "C52_pinv",
    "C52_tensor_qr",
    "C52_tensor_rq",
    "C52_inv_singular_refuted",
    "C52_eig_unmatched_refuted",
    "C52_qr_complete_refuted",
    "C52_diagflat_legs_refuted",
    "C52_pinv_cutoff_refuted"
   ],
   "note": "Exact arithmetic; numpy's factorisations of one block are parameters with their contract on the blocks as hypothesis. inv: all blocks square; eig: column legs match row legs; diag of a vector: one leg; tensor qr / rq: positive dimensions, the dimension before the cut is not 1, some allowed entry (as C33). Refuted: inv of a singular matrix with unmatched sectors, eig of an unmatched matrix, width of complete Q, diag of a vector on several legs, cutoff of pinv."
  },
  {
   "property": "C53",
   "status": "proved",
   "theorems": [
    "C53_trace",
    "C53_trace_two_legs",
    "C53_trace_increasing",
    "C53_trace_same_order",
    "C53_trace_default",
    "C53_trace_runs",
    "C53_trace_rejects",
    "C53_trace_value_refuted",
    "C53_trace_returns_refuted",
    "C53_trace_shape_refuted",
    "C53_trace_empty_leg_refuted"
   ],
   "note": "The final item() of a 0-dimensional result is not modelled; trace_runs needs positive dimensions. Pairs of legs as the code forms them are a hypothesis (paired), met by axes of at most two legs, increasing legs, legs in the same relative order. Refuted otherwise: wrong value, error on matching axes, other axes come back ungrouped, groups with a leg of dimension 0 raise."
  },
  {
   "property": "C54",
   "status": "proved",
   "theorems": [
    "C54_factorisation",
    "C54_ritz_pairs",
    "C54_exact",
    "C54_nonzero",
    "C54_reorthogonalize",
    "C54_total",
    "C54_reject",
    "C54_accept",
    "C54_invariant_refuted",
    "C54_scale_refuted",
    "C54_warning_refuted",
    "C54_delta_refuted"
   ],
   "note": "Exact arithmetic over any field with conjugation and square roots where defined; eigh's contract is a hypothesis. Factorisation for every run, Ritz pairs / exactness / independence of reorthogonalize when all rounds are done, non-zero eigenvalues in every run, totality when the residuals stay longer than delta, argument checks. Refuted: invariant Krylov spaces (0/0), initial states no longer than delta (spurious 0 without warning), the warning off by one, delta >= 1."
  },
  {
   "property": "C55",
   "status": "proved",
   "theorems": [
    "C55_free_fermion",
    "C55_one_site_refuted",
    "C55_empty_refuted"
   ],
   "note": "Any commutative semiring with mone*mone = 1; dtype conversions not modelled. Refuted: a lattice of one site or of none gives an operator on two sites."
  },
  {
   "property": "C56",
   "status": "proved",
   "theorems": [
    "C56_decomp",
    "C56_mpo",
    "C56_condenser",
    "C56_expander",
    "C56_entangler",
    "C56_condenser_refuted",
    "C56_mpo_root_refuted"
   ],
   "note": "Any commutative semiring, activation an arbitrary length-preserving function of a row. keras bookkeeping, dtypes, unknown dimensions and empty batches not modelled. Refuted: DenseCondenser does not check divisibility; DenseMPO takes math.ceil of a floating point root, 3125 with 5 nodes gives legs of dimension 6 and no input is accepted."
  },
  {
   "property": "C57",
   "status": "proved",
   "theorems": [
    "C57_conv",
    "C57_channels_first_refuted"
   ],
   "note": "Any commutative semiring; tf.nn.conv2d and the activation are parameters; the chain is contracted from left to right (the schedule is C02, C23). compute_output_shape not modelled. Refuted for channels_first: the bias is broadcast along the width."
  },
  {
   "property": "C58",
   "status": "proved",
   "theorems": [
    "C58_transfer_left",
    "C58_transfer_right",
    "C58_eigs_left",
    "C58_eigs_right",
    "C58_same_state",
    "C58_canonical_form",
    "C58_connector_refuted",
    "C58_initial_state_refuted"
   ],
   "note": "Exact arithmetic; library functions are parameters with contracts (all met together by the example over the reals). The canonical form is refuted for states that already have a connecting matrix; initial states of bond dimension above one always raise."
  },
  {
   "property": "C59",
   "status": "proved",
   "theorems": [
    "C59_fft",
    "C59_rejects",
    "C59_fft_complex",
    "C59_repeated_input_refuted"
   ],
   "note": "Exact arithmetic; C59_fft_complex is the instance with the cosine and sine of the standard library. A repeated input is not rejected and breaks the network (C59_repeated_input_refuted)."
  },
  {
   "property": "C60",
   "status": "proved",
   "theorems": [
    "C60_sat",
    "C60_count",
    "C60_rejects",
    "C60_unlinked_refuted",
    "C60_two_parts_refuted"
   ],
   "note": "Entries in any commutative semiring; for int32 this means that counts are correct modulo 2^32. Problems whose clauses do not link all variables are not counted (C60_unlinked_refuted, C60_two_parts_refuted)."
  },
  {
   "property": "C61",
   "status": "proved",
   "theorems": [
    "C61_apply_op",
    "C61_expval",
    "C61_outside",
    "C61_circuit",
    "C61_overlap",
    "C61_prepare",
    "C61_gate",
    "C61_evolve"
   ],
   "note": "expm, the norm and division are universally quantified; apply_circuit and evolve_trotter run on the heap model of contract_between and reorder_edges. Not modelled: evolve_trotter_defun (graph compilation), callbacks, data types, negative n1."
  },
  {
   "property": "C62",
   "status": "proved",
   "theorems": [
    "C62_topology",
    "C62_strings",
    "C62_trace_refuted"
   ],
   "note": "Strings are lists of character codes. That a letter may not stand twice in one part (a trace, allowed on the left side of einsum) is C62_trace_refuted."
  },
  {
   "property": "C63",
   "status": "proved",
   "theorems": [
    "C63_orthonormality",
    "C63_rejected",
    "C63_no_centre",
    "C63_canonical",
    "C63_left_zero",
    "C63_right_zero",
    "C63_canonical_zero",
    "C63_finite",
    "C63_after_position",
    "C63_single_site_refuted"
   ],
   "note": "Exact numbers: the hypotheses on them (subtraction, definiteness of sums of squared absolute values, square root) hold for the real numbers (C63_numbers_ex). A chain of one site is C63_single_site_refuted."
  },
  {
   "property": "C64",
   "status": "proved",
   "theorems": [
    "C64_fuse",
    "C64_fuse_none",
    "C64_flip",
    "C64_equal",
    "C64_copy",
    "C64_product",
    "C64_product_dual",
    "C64_types_refuted",
    "C64_mixed_refuted"
   ],
   "note": "That __eq__ ignores the charge types is C64_types_refuted; that charges of different types fuse by the rule of the left one is C64_mixed_refuted. The value checks of the charge constructors are not modelled in tadd."
  },
  {
   "property": "C65",
   "status": "proved",
   "theorems": [
    "C65_drawing",
    "C65_degree",
    "C65_declared",
    "C65_label",
    "C65_iterator_refuted",
    "C65_part_refuted"
   ],
   "note": "For an iterator instead of a list no edge is drawn (C65_iterator_refuted); for a part of a network edges lead to undeclared vertices (C65_part_refuted). Names of nodes and edges are arguments of the model; the graphviz library is not modelled."
  },
  {
   "property": "C66",
   "status": "proved",
   "theorems": [
    "C66_isometry",
    "C66_value",
    "C66_optimal",
    "C66_shift",
    "C66_negative"
   ],
   "note": "The environment is an argument (jax derivatives are not modelled), svd and eigh are parameters with their contracts as hypotheses, and the node calls are replaced by the tensor operations they perform. The result maximises the linear objective; its negative minimises it, and the energy does not depend on the sign."
  },
  {
   "property": "C67",
   "status": "proved",
   "theorems": [
    "C67_value",
    "C67_order",
    "C67_mixed",
    "C67_adjoint",
    "C67_involution",
    "C67_hconj",
    "C67_hconj_total"
   ],
   "note": "Same conditions on the labels as C16 (each closed label on two axes or batched, sizes agree). Converting an array to its own backend is the identity."
  },
  {
   "property": "C68",
   "status": "proved",
   "theorems": [
    "C68_lossless",
    "C68_hamiltonian",
    "C68_conserved"
   ],
   "note": "Charges are integers (the sums that occur lie between -3 and 3, so int16 does not overflow). dtypes are not modelled. C68_hamiltonian and C68_conserved need two sites, as C37."
  },
  {
   "property": "C69",
   "status": "proved",
   "theorems": [
    "C69_chain",
    "C69_shapes",
    "C69_mera",
    "C69_kron"
   ],
   "note": "dtypes are not modelled; subtraction is addition of mone times the second array."
  },
  {
   "property": "C70",
   "status": "proved",
   "theorems": [
    "C70_roll",
    "C70_back",
    "C70_ring",
    "C70_accepted",
    "C70_negative",
    "C70_negative_refuted",
    "C70_check_refuted"
   ],
   "note": "Refuted: negative numbers of sites lengthen the unit cell (C70_negative states what they do); the constructor tests only the outer bonds, so that it can accept an operator and refuse it after rolling. dtypes and conversion to the backend are not modelled."
  },
  {
   "property": "C71",
   "status": "proved",
   "theorems": [
    "C71_succeeds",
    "C71_effect",
    "C71_unchanged",
    "C71_failure",
    "C71_atomic_refuted",
    "C71_repeat_refuted"
   ],
   "note": "Refuted: an exception does not undo the nodes already switched; a node that occurs twice is refused. A node is its backend and array; the conversion is a parameter that does not raise."
  },
  {
   "property": "C72",
   "status": "proved",
   "theorems": [
    "C72_partition",
    "C72_partition_raises",
    "C72_strides",
    "C72_positions",
    "C72_transposed",
    "C72_scalar_refuted",
    "C72_empty_refuted"
   ],
   "note": "Refuted: an empty list of dimensions gets one stride; a dimension 0 after the first axis makes a stride 0, with which np.arange raises. Integers do not overflow."
  },
  {
   "property": "C73",
   "status": "proved",
   "theorems": [
    "C73_succeeds",
    "C73_args_error",
    "C73_value_error",
    "C73_x0_error",
    "C73_args_backend_refuted",
    "C73_x0_error_refuted"
   ],
   "note": "Refuted: the docstring says that the backends of args must agree, which is not checked; an x0 that is not a Tensor without backend is an AttributeError. A backend is given by its name."
  },
  {
   "property": "C74",
   "status": "proved",
   "theorems": [
    "C74_dtype",
    "C74_collapse",
    "C74_roundtrip",
    "C74_wide",
    "C74_one_row_refuted",
    "C74_no_columns_refuted",
    "C74_dtype_refuted"
   ],
   "note": "Refuted: one row becomes an array without axes that expand does not expand (np.unique makes it one-dimensional again, so unique is not affected); rows without numbers come back with 8 columns; get_dtype has no room for more than 8 bytes. A number is the list of its bytes."
  },
  {
   "property": "C75",
   "status": "proved",
   "theorems": [
    "C75_dimension",
    "C75_edges",
    "C75_negative_refuted"
   ],
   "note": "Refuted: get_edge accepts a negative axis for which get_dimension raises. A set is a list without repetitions; whether an edge dangles is a parameter."
  }
 ]
}