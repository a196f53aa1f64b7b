{
 "claims": [
  {
   "property": "C01",
   "status": "proved",
   "theorems": [
    "C01_scope_restored",
    "C01_scope_isolation",
    "C01_scope_entered",
    "C01_nested_scope"
   ],
   "note": "Every nested program of registry operations, normal or exceptional exit, any reachable state."
  },
  {
   "property": "C02",
   "status": "partial",
   "theorems": [
    "C02_get_partial",
    "C02_get_unregistered_refuted",
    "C02_set_partial",
    "C02_set_other_names_refuted",
    "C02_pop_partial",
    "C02_pop_exactly_refuted",
    "C02_get_parameters",
    "C02_listed_is_found",
    "C02_clear"
   ],
   "note": "The code violates three clauses when a name denotes a scope: get raises instead of returning None, set/pop of a scope name destroy the parameters below it (refuted theorems with witnesses). The exact behaviour is proved; get_parameters, listing and clearing hold in full."
  },
  {
   "property": "C03",
   "status": "proved",
   "theorems": [
    "C03_call",
    "C03_creates",
    "C03_shape_checked",
    "C03_sharing",
    "C03_never_reinitialised"
   ],
   "note": "Exact effect of each call, sharing over every history, storage only grows."
  },
  {
   "property": "C04",
   "status": "proved",
   "theorems": [
    "C04_window",
    "C04_equal_length",
    "C04_cover",
    "C04_drop_last_disjoint",
    "C04_drop_last_loss"
   ],
   "note": ""
  },
  {
   "property": "C05",
   "status": "proved",
   "theorems": [
    "C05_simple",
    "C05_csv",
    "C05_memory_simple",
    "C05_threaded",
    "C05_simple_threaded",
    "C09_unshuffled",
    "C10_order_partial"
   ],
   "note": "Every source kind, both thread modes."
  },
  {
   "property": "C06",
   "status": "partial",
   "theorems": [
    "C06_csv",
    "C06_memory_csv",
    "C06_memory_simple",
    "C06_memory_file_csv",
    "C06_simple_partial",
    "C06_simple_batches",
    "C06_simple_refuted"
   ],
   "note": "Holds for every source kind and cache stack except the bare SimpleDataSource when the batch size does not divide the data size: there a batch that crosses an epoch end uses the old order for its tail (refuted with a witness; exact order proved)."
  },
  {
   "property": "C07",
   "status": "partial",
   "theorems": [
    "C07_simple",
    "C07_csv",
    "C07_memory_csv",
    "C07_threaded",
    "C07_threaded_refuted"
   ],
   "note": "Full for use_thread=False. With use_thread=True the first StopIteration is right but a later call blocks for ever (refuted)."
  },
  {
   "property": "C08",
   "status": "partial",
   "theorems": [
    "C08_transparent",
    "C08_shuffled",
    "C08_off_memory",
    "C08_early_reset_refuted"
   ],
   "note": "Full when resets happen at epoch ends, as the iterator does. Two resets before the first pass is complete corrupt a shuffling cache (refuted)."
  },
  {
   "property": "C09",
   "status": "proved",
   "theorems": [
    "C09_created",
    "C09_reads",
    "C09_epochs",
    "C09_unshuffled"
   ],
   "note": ""
  },
  {
   "property": "C10",
   "status": "partial",
   "theorems": [
    "C10_size_partial",
    "C10_order_partial",
    "C10_shuffled_partial",
    "C10_duplicate_refuted"
   ],
   "note": "Full for distinct source objects; listing one source object twice yields one copy (refuted)."
  },
  {
   "property": "C33",
   "status": "partial",
   "theorems": [
    "C33_slice_csv_partial",
    "C33_slice_simple_partial",
    "C33_memory_refuted"
   ],
   "note": "Full for slices of uncached sources. A slice of an iterator with memory cache delivers wrong examples from the third epoch on (refuted)."
  },
  {
   "property": "C34",
   "status": "partial",
   "theorems": [
    "C34_workers_csv",
    "C34_workers_simple_partial",
    "C34_workers_simple_refuted"
   ],
   "note": "Full for CSV sources; for SimpleDataSource when the batch size divides the window (refuted otherwise)."
  },
  {
   "property": "C18",
   "status": "partial",
   "theorems": [
    "C18_reset",
    "C18_reset_params",
    "C18_sgd_reset_refuted",
    "C18_add_partial",
    "C18_overwrite_refuted",
    "C18_state_shape_refuted",
    "C18_retain_partial"
   ],
   "note": "Full for reset=True (parameters always; fresh states except Sgd, refuted). With reset=False a name given again keeps its old variable although its state takes the new shape (refuted)."
  },
  {
   "property": "C19",
   "status": "partial",
   "theorems": [
    "C19_refuted",
    "C19_partial",
    "C19_check"
   ],
   "note": "The post hook always runs before the operation: the scope object is an unnamed temporary, so the bracketing is refuted for every non-empty trace. Exactly-once application proved."
  },
  {
   "property": "C20",
   "status": "partial",
   "theorems": [
    "C20_h5_partial",
    "C20_h5_refuted",
    "C20_h5_save_refuted",
    "C20_protobuf"
   ],
   "note": "Full for protobuf; for HDF5 when no name is a string prefix of another (refuted otherwise)."
  },
  {
   "property": "C35",
   "status": "proved",
   "theorems": [
    "C35_fused",
    "C35_fused_lazy",
    "C35_not_fused"
   ],
   "note": ""
  },
  {
   "property": "C21",
   "status": "partial",
   "theorems": [
    "C21_call",
    "C21_never_overflowed",
    "C21_terminates",
    "C21_growth_partial",
    "C21_interval_refuted"
   ],
   "note": "Never applies an overflowed gradient, exact rescaling, retries and termination are proved. The scale grows at update N+2 and then every N+1 updates, not after N (refuted)."
  },
  {
   "property": "C22",
   "status": "partial",
   "theorems": [
    "C22_polynomial_partial",
    "C22_polynomial_refuted",
    "C22_cosine_partial",
    "C22_cosine_refuted",
    "C22_exponential",
    "C22_step",
    "C22_warmup"
   ],
   "note": "Full for step, exponential and warm-up; polynomial and cosine for iterations up to max_iter (refuted beyond)."
  },
  {
   "property": "C11",
   "status": "partial",
   "theorems": [
    "C11_values_exist",
    "C11_forward_partial",
    "C11_forward_no_inplace",
    "C11_forward_all_partial",
    "C11_inplace_refuted"
   ],
   "note": "Exactly once, in order, right value: proved for all acyclic graphs with any sharing, masks and flags; with in-placing under the condition that no array is overwritten while its old contents are wanted. The code does not enforce that condition: two chained not-modify in-place functions defeat the in-place check (refuted)."
  },
  {
   "property": "C12",
   "status": "partial",
   "theorems": [
    "C12_same_result_partial",
    "C12_retained_partial",
    "C12_no_inplace",
    "C12_masked_refuted"
   ],
   "note": "Full without in-placing; with in-placing under the same no-hazard condition. A masked-out in-placed input makes clear_buffer destroy live data (refuted)."
  },
  {
   "property": "C36",
   "status": "partial",
   "theorems": [
    "C36_kept_for_backward_partial",
    "C36_states",
    "C36_forward_all_refuted"
   ],
   "note": "Proved for forward under the no-hazard condition; forward_all loses data of multi-output functions (refuted)."
  },
  {
   "property": "C37",
   "status": "partial",
   "theorems": [
    "C37_flags_restored_partial",
    "C37_duplicate_refuted"
   ],
   "note": "Full for distinct variables; a variable listed twice stays persistent (refuted)."
  },
  {
   "property": "C38",
   "status": "partial",
   "theorems": [
    "C38_count_partial",
    "C38_never_too_small",
    "C38_count_refuted"
   ],
   "note": "Exact count proved: uses plus one per destroyed function. Never too small; too large after a destruction (refuted)."
  },
  {
   "property": "C13",
   "status": "partial",
   "theorems": [
    "C13_marked",
    "C13_paths_exist",
    "C13_backward_partial",
    "C13_each_once_partial",
    "C13_intermediate_partial",
    "C13_cut_refuted"
   ],
   "note": "Sum over paths, each function once, consumers first: proved for all acyclic graphs with any sharing, masks and leaf gradient sharing, provided no output of a function has need_grad=False. With such an output, a multi-output function reads a stale gradient (refuted)."
  },
  {
   "property": "C15",
   "status": "partial",
   "theorems": [
    "C15_history",
    "C15_last_write",
    "C15_zero",
    "C15_modify",
    "C15_fill_partial",
    "C15_fill_refuted"
   ],
   "note": "Every history of reads, writes, in-place changes, zero, fill and clear on an array: proved in full except that the first read after fill(v) fixes the data type, so a later read in a wider type delivers the rounded v (refuted)."
  },
  {
   "property": "C39",
   "status": "partial",
   "theorems": [
    "C39_views_partial",
    "C39_child_write_seen_in_parent",
    "C39_depth_refuted",
    "C39_clear_refuted",
    "C39_drop_refuted"
   ],
   "note": "Proved for every history with at most two levels of narrowing, no clear() of a narrowed array and no handle dropped between zero/fill and its next access; each condition is necessary (three refutations)."
  },
  {
   "property": "C14",
   "status": "partial",
   "theorems": [
    "C14_grad_partial",
    "C14_after_forward_partial",
    "C14_single_output_partial",
    "C14_agrees_with_backward_partial",
    "C14_same_function_refuted",
    "C14_output_twice_refuted",
    "C14_nested_outputs_refuted",
    "C14_shared_parameter_refuted",
    "C14_output_as_input_refuted",
    "C14_input_twice_refuted"
   ],
   "note": "Sum over all paths from all outputs proved for all acyclic graphs when the outputs have different functions, the inputs are different variables, none an output, each one variable of the graph; agreement with backward for one output. Each dropped condition is refuted by a concrete call: two outputs of one function, nested outputs before forward (KeyError), a parameter used through two handles, an output or a duplicate among the inputs."
  },
  {
   "property": "C16",
   "status": "proved",
   "theorems": [
    "C16_no_crash",
    "C16_live_blocks",
    "C16_stable",
    "C16_failure"
   ],
   "note": "Every history of allocations, frees, releases and malloc failures on any devices."
  },
  {
   "property": "C17",
   "status": "proved",
   "theorems": [
    "C17_statistics",
    "C17_release",
    "C17_release_all",
    "C17_release_device"
   ],
   "note": "Every history; releasing returns every chunk without a live block."
  },
  {
   "property": "C26",
   "status": "partial",
   "theorems": [
    "C26_offset_partial",
    "C26_index_partial",
    "C26_offset_range",
    "C26_increment",
    "C26_enumeration",
    "C26_sizes_partial",
    "C26_axis_partial",
    "C26_increment_axis",
    "C26_axes",
    "C26_negative_axis",
    "C26_large_refuted"
   ],
   "note": "Positions, inverse conversion, the increment loop visiting every index once in row-major order, inner and outer sizes, and the variants with an axis. The offset and size theorems ask for at most 2^31 elements because the running value of std::inner_product and std::accumulate is a 32-bit int; C26_large_refuted gives a wrong offset beyond that."
  },
  {
   "property": "C25",
   "status": "partial",
   "theorems": [
    "C25_axis_partial",
    "C25_axis_exact",
    "C25_axis_ordinary",
    "C25_zero_step",
    "C25_forward_partial",
    "C25_backward_partial",
    "C25_ordinary",
    "C25_leading_axes",
    "C25_start_refuted",
    "C25_beyond_refuted",
    "C25_end_refuted",
    "C25_reverse_refuted",
    "C25_short_refuted",
    "C25_again_refuted",
    "C25_empty_refuted"
   ],
   "note": "An axis is sliced as Python does exactly when the code stays inside the axis (C25_axis_partial and C25_axis_exact); C25_axis_ordinary and C25_ordinary give bounds for which it does. Forward and backward are proved for any number of axes under that condition. The full statement fails for starts and stops outside the axis, for lists shorter than the axes with None, for a second setup after rewiring, and for backward of an empty output; see the refutations. Overflow of int is not modelled."
  },
  {
   "property": "C24",
   "status": "partial",
   "theorems": [
    "C24_pack_partial",
    "C24_roundtrip_partial",
    "C24_unsorted_partial",
    "C24_pack_backward_partial",
    "C24_pad_backward_partial",
    "C24_zero_length_refuted",
    "C24_zero_length_unsorted_refuted",
    "C24_longer_refuted",
    "C24_order_refuted",
    "C24_padding_value_refuted"
   ],
   "note": "The round trip is proved in both layouts, with any total length, sorted and with enforce_sorted=False for any result of the sort, for positive lengths whose maximum is the number of steps. It fails for lengths of zero, for a padded input longer than every length (batch sizes left uninitialised), and for unsorted lengths with enforce_sorted=True; the padding value is ignored. F.gather is modelled by its meaning."
  },
  {
   "property": "C32",
   "status": "partial",
   "theorems": [
    "C32_positions_partial",
    "C32_aligned",
    "C32_rejected",
    "C32_index_refuted",
    "C32_duplicate_refuted",
    "C32_row_length_refuted",
    "C32_underscore_refuted"
   ],
   "note": "Proved for headers whose items are numbered from left to right and whose whole variables have one column; the full statement is refuted: the index is never used, a second whole column replaces the first, rows of the wrong length give no data, names ending in an underscore lose it. Reading a cell is abstract."
  },
  {
   "property": "C30",
   "status": "proved",
   "theorems": [
    "C30_restores",
    "C30_lexical",
    "C30_default_context",
    "C30_interleaved_refuted"
   ],
   "note": "Proved for all programs of one thread, with exceptions raised and caught anywhere. C30_interleaved_refuted shows that nesting is needed: scopes left in another order (threads, generators) do not restore."
  },
  {
   "property": "C40",
   "status": "partial",
   "theorems": [
    "C40_graph_partial",
    "C40_name_partial",
    "C40_module_partial",
    "C40_nested_refuted",
    "C40_exception_refuted"
   ],
   "note": "Restored when the body ends normally and has no other graph scope inside. Refuted for nested graph scopes (one global holds the previous builder of all levels) and for exceptions (no finally)."
  },
  {
   "property": "C28",
   "status": "partial",
   "theorems": [
    "C28_unique_partial",
    "C28_unique_types",
    "C28_network_partial",
    "C28_unique_refuted",
    "C28_input_refuted",
    "C28_output_refuted",
    "C28_given_refuted"
   ],
   "note": "Exactly when generated names are distinct (C28_unique_partial), and that every recorded name stands for its variable when names given by the user are none of the names that could be generated. Refuted otherwise: a, a, a_1 gives a_1 twice; user names collide with generated ones silently. Parameters passed as nn.Variable are not modelled."
  },
  {
   "property": "C27",
   "status": "proved",
   "theorems": [
    "C27_walk",
    "C27_walk_all",
    "C27_loaded",
    "C27_cyclic_refuted",
    "C27_input_refuted",
    "C27_sink_refuted",
    "C27_rewritten_refuted"
   ],
   "note": "For every well-formed acyclic network and any stop flags the walk ends within (outputs + functions + inputs) turns and calls exactly the needed functions that read nothing stopped, each once, after the producers of its inputs; networks read from a message call every function. The refutations show that each well-formedness condition is needed (cycle, input with a producer, function without outputs, variable written twice)."
  },
  {
   "property": "C29",
   "status": "partial",
   "theorems": [
    "C29_remove_partial",
    "C29_input_refuted",
    "C29_parameter_refuted",
    "C29_two_outputs_refuted",
    "C29_readers_refuted"
   ],
   "note": "Proved for every well-formed acyclic network in which no two outputs come from one variable through identities and no output comes through identities from an input or parameter: the removal ends, ports are kept, nothing dangles, renamings lead to existing variables with the same values, other functions are kept. Refuted outside these conditions (input deleted, KeyError, output deleted), and the reader list of a kept output is lost."
  },
  {
   "property": "C23",
   "status": "partial",
   "theorems": [
    "C23_roundtrip_partial",
    "C23_nnp_partial",
    "C23_restore_partial",
    "C23_dot_refuted",
    "C23_empty_refuted",
    "C23_rounding_refuted",
    "C23_order_refuted",
    "C23_shape_refuted",
    "C23_extensions"
   ],
   "note": "Round trip into an empty scope and in place, for HDF5 (names without empty or dot components, any visiting order), protocol buffers (contents that fit 32-bit floats) and .nnp archives. Refuted outside: a scope called \".\" or a name ending in a slash is renamed by HDF5; contents are rounded by the protocol buffer; empty scopes left behind change the order; a shape mismatch stops half-way."
  },
  {
   "property": "C31",
   "status": "proved",
   "theorems": [
    "C31_delivered",
    "C31_all_delivered",
    "C31_close",
    "C31_no_waste",
    "C31_unreadable_refuted",
    "C31_no_threads_refuted",
    "C31_closed_refuted"
   ],
   "note": "For every number of threads, every schedule of the workers and every sequence of reads and resets, each delivered example is the one read directly; with a thread and readable files everything is delivered, nothing waits for ever, and closing stops every worker. Only .npy caches prefetch and only they are modelled; files do not change meanwhile; no communicator, no normalisation. Refuted stronger readings: an unreadable file that was only prefetched kills the process; zero threads; use after close."
  },
  {
   "property": "C41",
   "status": "proved",
   "theorems": [
    "C41_to_float_and_back",
    "C41_detour"
   ],
   "note": "For all halfs: the bit operations of the conversion (including the detour through a float temporary) computed on sign, exponent and fraction; the normalisation loop checked on all 1024 subnormal fractions."
  },
  {
   "property": "C42",
   "status": "partial",
   "theorems": [
    "C42_normal_partial",
    "C42_subnormal_partial",
    "C42_special",
    "C42_monotone",
    "C42_sticky_refuted",
    "C42_underflow_refuted"
   ],
   "note": "For every float of magnitude 2^-14 and more: nearest half, ties to even, infinity exactly from 65520. Special values, sign and monotonicity for all floats. Below 2^-14 only: error less than one unit, and nearest when no bits are shifted out before rounding; refuted otherwise (2.5000002 units give 2; 0.875 units give 0)."
  },
  {
   "property": "C43",
   "status": "partial",
   "theorems": [
    "C43_less",
    "C43_order_partial",
    "C43_mixed",
    "C43_zero_refuted",
    "C43_nan_refuted",
    "C43_limits_refuted"
   ],
   "note": "Less and greater in full; <=, >= without NaN; == and != without NaN and zero; half against float for finite values. Refuted: -0 == +0 is false and NaN == NaN is true for two halfs, NaN <= x is true, and max() is 32768 although 65504 is finite."
  },
  {
   "property": "C44",
   "status": "partial",
   "theorems": [
    "C44_shift_partial",
    "C44_flip",
    "C44_pad_constant",
    "C44_pad_extend",
    "C44_broadcast_partial",
    "C44_transpose_partial",
    "C44_shift_reflect_refuted",
    "C44_transpose_negative_refuted",
    "C44_transpose_empty_refuted"
   ],
   "note": "All shapes and parameters, positions as unbounded integers. Flip and the three modes of pad in full for arrays with elements. Shift mirrored only while the shift is at most twice the axis (refuted beyond). Broadcast to at most 8 axes, the most the code supports. Transpose for axes counted from the front and arrays with elements: negative axes pass the check and are then used unrefined, empty arrays are written to (both refuted)."
  },
  {
   "property": "C45",
   "status": "partial",
   "theorems": [
    "C45_gather_nd_partial",
    "C45_gather_nd_checks_partial",
    "C45_gather_partial",
    "C45_embed_partial",
    "C45_diag_part_partial",
    "C45_diag",
    "C45_gather_batch_refuted",
    "C45_diag_part_square_refuted"
   ],
   "note": "gather_nd with its check of positions, gather with batch dimensions up to the axis, embed for positions inside (it does not check them), diagonals of square matrices. Refuted: gather with more batch dimensions than axes before the gathered one divides by zero; matrix_diag_part accepts matrices that are not square and reads outside the array."
  },
  {
   "property": "C46",
   "status": "partial",
   "theorems": [
    "C46_shift",
    "C46_flip",
    "C46_pad",
    "C46_broadcast",
    "C46_transpose",
    "C46_gather_nd",
    "C46_gather_partial",
    "C46_gather_refuted",
    "C46_embed",
    "C46_diag"
   ],
   "note": "Exact integers instead of floats. All of the functions of C44 and C45; gather only when the gradient is cleared before, as its backward pass ignores accum (refuted)."
  },
  {
   "property": "C47",
   "status": "partial",
   "theorems": [
    "C47_concatenate_partial",
    "C47_concatenate_shape",
    "C47_stack_partial",
    "C47_stack_shape",
    "C47_split_partial",
    "C47_split_shape",
    "C47_split_stack",
    "C47_stack_split",
    "C47_concatenate_gradient",
    "C47_stack_gradient",
    "C47_split_gradient",
    "C47_concatenate_refuses",
    "C47_stack_refuses",
    "C47_split_refuses",
    "C47_concatenate_axes_refuted",
    "C47_concatenate_empty_refuted",
    "C47_stack_empty_refuted"
   ],
   "note": "All shapes whose axes after the joined one are not empty and, for concatenate, whose first input is not empty (otherwise the setup divides by zero: refuted). Inputs with more axes than the first are accepted and written out of bounds (refuted)."
  },
  {
   "property": "C48",
   "status": "partial",
   "theorems": [
    "C48_cumsum_partial",
    "C48_cumprod_partial",
    "C48_cumsum_gradient",
    "C48_cumprod_gradient",
    "C48_axis",
    "C48_empty_refuted"
   ],
   "note": "All non-empty arrays, exact rational numbers instead of floats; the masked product algorithm for zeros is proved for all inputs. Empty arrays divide by zero in setup (refuted)."
  },
  {
   "property": "C49",
   "status": "partial",
   "theorems": [
    "C49_shape",
    "C49_again_partial",
    "C49_again_other_partial",
    "C49_onto",
    "C49_sum_partial",
    "C49_mean_partial",
    "C49_prod_partial",
    "C49_sum_gradient_partial",
    "C49_mean_gradient_partial",
    "C49_prod_gradient_partial",
    "C49_prod_gradient_refuted",
    "C49_max_partial",
    "C49_min_partial",
    "C49_max_gradient_partial",
    "C49_max_refuted",
    "C49_order_refuted",
    "C49_again_refuted",
    "C49_empty_refuted",
    "C49_no_axes_refuted"
   ],
   "note": "All non-empty arrays and increasing axes, exact rational numbers instead of floats. Prod gradients only where no group has exactly one zero (refuted otherwise), Max and Min only where an element is beyond their starting values of -1e8 and 1e8 (refuted otherwise). Also refuted: axes in another order, setting up again with another number of axes, reducing empty axes, and the documented meaning of an empty list of axes."
  },
  {
   "property": "C50",
   "status": "partial",
   "theorems": [
    "C50_sort",
    "C50_backward",
    "C50_gradient_partial",
    "C50_gradient_refuted",
    "C50_axis"
   ],
   "note": "All shapes (also empty), any std::sort that permutes and orders. The backward pass applies the index where its inverse is needed: proved correct when sorting exchanges elements in pairs, refuted for the 3-cycle 2, 3, 1. Exact rational numbers instead of floats (no NaN)."
  },
  {
   "property": "C51",
   "status": "partial",
   "theorems": [
    "C51_forward",
    "C51_gradient",
    "C51_gradient_all",
    "C51_gradient_refuted",
    "C51_grad",
    "C51_setup"
   ],
   "note": "All shapes, any heap functions that do what the C++ standard says. Without reduction TopKData passes the whole gradient on, also to elements that were not selected (refuted). Exact rational numbers instead of floats."
  },
  {
   "property": "C52",
   "status": "partial",
   "theorems": [
    "C52_setup",
    "C52_accepted_partial",
    "C52_forward_partial",
    "C52_backward_partial",
    "C52_fits_refuted",
    "C52_no_channels_refuted"
   ],
   "note": "All batch shapes, numbers of dimensions, groups, padding, stride and dilation; exact rational numbers instead of floats. Forward, gradients and shape for kernels that fit into the padded image; a kernel up to one stride too large is accepted as well (refuted), and no output channels divide by zero. channel_last is not modelled (the CPU code refuses it)."
  },
  {
   "property": "C53",
   "status": "partial",
   "theorems": [
    "C53_setup",
    "C53_accepted_partial",
    "C53_forward_partial",
    "C53_backward_partial",
    "C53_transposed",
    "C53_channels_refuted",
    "C53_negative_refuted",
    "C53_empty_refuted"
   ],
   "note": "All batch shapes, numbers of dimensions, groups, padding, stride, dilation and output padding from 0 to below the stride; exact rational numbers instead of floats. Refuted: the number of input channels is not checked, a negative output padding is accepted and gives a wrong result, an input without positions is read outside."
  },
  {
   "property": "C54",
   "status": "partial",
   "theorems": [
    "C54_setup",
    "C54_accepted_partial",
    "C54_sum_values_partial",
    "C54_average_values_partial",
    "C54_sum_gradient_partial",
    "C54_max_values_partial",
    "C54_max_gradient_partial",
    "C54_max_unprepared",
    "C54_padding_refuted",
    "C54_foreign_maximum_refuted",
    "C54_fits_refuted"
   ],
   "note": "All batch shapes, two and three image dimensions, strides and border modes, for paddings smaller than the kernel and kernels that fit into the padded image; exact rational numbers instead of floats. Refuted: a padding as large as the kernel is accepted and gives windows without elements, where MaxPooling reads outside the image or an element it does not cover and the average divides by zero; a kernel that does not fit is accepted with a negative number of outputs or with one."
  },
  {
   "property": "C55",
   "status": "partial",
   "theorems": [
    "C55_is_gradient_partial",
    "C55_gradient_partial",
    "C55_axis_refuted",
    "C55_stride_refuted"
   ],
   "note": "For all poolings of C54 with an axis for the channel and an explicit stride. Refuted: an input without an axis for the channel, and the default stride, which MaxPooling accepts, are read out of range."
  },
  {
   "property": "C56",
   "status": "partial",
   "theorems": [
    "C56_global_values_partial",
    "C56_global_gradient_partial",
    "C56_unpooling_values_partial",
    "C56_unpooling_gradient_partial",
    "C56_global_3d_refuted",
    "C56_global_empty_refuted",
    "C56_scalar_refuted"
   ],
   "note": "Global average for inputs with up to two image dimensions (with three, elements of the wrong place are averaged: refuted), not empty; unpooling for all shapes but scalars and all positive kernels."
  },
  {
   "property": "C57",
   "status": "proved",
   "theorems": [
    "C57_setup",
    "C57_accepted",
    "C57_values",
    "C57_gradient",
    "C57_empty_refuted",
    "C57_again_refuted"
   ],
   "note": "All shapes and base axes that setup accepts, with and without bias; exact rational numbers instead of floats. Also shown: an image without elements makes the setup divide by zero, and a negative base axis is fixed by the first setup."
  },
  {
   "property": "C58",
   "status": "partial",
   "theorems": [
    "C58_setup",
    "C58_accepted",
    "C58_values_partial",
    "C58_gradient_partial",
    "C58_axes_refuted"
   ],
   "note": "All shapes, transposes and repetitions, if inputs that are repeated have at most 8 axes; exact rational numbers instead of floats. Refuted: with 9 axes the setup accepts a repetition that the forward pass cannot compute."
  },
  {
   "property": "C59",
   "status": "partial",
   "theorems": [
    "C59_where_setup",
    "C59_where_accepted",
    "C59_where_values_partial",
    "C59_where_gradient_partial",
    "C59_fill_setup",
    "C59_fill_values_partial",
    "C59_fill_gradient_partial",
    "C59_where_empty_refuted",
    "C59_fill_again_refuted",
    "C59_fill_axes_refuted",
    "C59_fill_accepts_refuted"
   ],
   "note": "Where for all shapes and conditions with elements (an empty condition is divided by: refuted). BoolFill for all repeatable masks after a first setup, with at most 8 axes if the mask is repeated; refuted: a second setup keeps broadcasting to the first shape and fills the wrong elements, nine axes are refused when run, and setup accepts masks that cannot be repeated."
  },
  {
   "property": "C60",
   "status": "partial",
   "theorems": [
    "C60_gather_setup_partial",
    "C60_gather_accepted",
    "C60_gather_values_partial",
    "C60_gather_gradient_partial",
    "C60_scatter_setup",
    "C60_scatter_accepted",
    "C60_scatter_values_partial",
    "C60_scatter_gradient_partial",
    "C60_gather_none_refuted",
    "C60_gather_sum_refuted",
    "C60_scatter_unused_refuted",
    "C60_scatter_few_refuted"
   ],
   "note": "Gather for all masks of zeros and ones with at least one one; scatter for all masks and at least as many rows as places. Refuted: a mask without ones divides by zero, other mask values give a wrong number of rows, the gradient of unused rows is not written, too few rows are repeated silently."
  },
  {
   "property": "C61",
   "status": "proved",
   "theorems": [
    "C61_setup",
    "C61_accepted",
    "C61_values",
    "C61_empty_refuted"
   ],
   "note": "All shapes with at least one axis and all labels. Also shown: a shape without axes makes the setup divide by zero."
  },
  {
   "property": "C62",
   "status": "partial",
   "theorems": [
    "C62_setup",
    "C62_accepted_partial",
    "C62_values",
    "C62_range",
    "C62_gradient",
    "C62_adjoint",
    "C62_axis_refuted"
   ],
   "note": "Values, refusal of indices and gradients for all shapes that fit and all indices. Refuted: setup accepts the number of axes and any negative number as the axis, which then reads outside of the shape."
  },
  {
   "property": "C63",
   "status": "partial",
   "theorems": [
    "C63_setup",
    "C63_accepted",
    "C63_add_values",
    "C63_copy_values",
    "C63_range",
    "C63_gradient_partial",
    "C63_adjoint_partial",
    "C63_gradient_out_partial",
    "C63_twice_refuted",
    "C63_twice_out_refuted",
    "C63_add_out_refuted",
    "C63_only_out_refuted",
    "C63_unchecked_refuted",
    "C63_rows_refuted"
   ],
   "note": "Values for all shapes and indices, with and without add and third input. The gradient is right with add and no third input, and without add for distinct places. Refuted: repeated places without add, add with a third input, the gradient of the third input alone; backward does not check indices; indices without rows are accepted."
  },
  {
   "property": "C64",
   "status": "partial",
   "theorems": [
    "C64_one",
    "C64_values_partial",
    "C64_bounds",
    "C64_zero_step",
    "C64_two_dots",
    "C64_too_many",
    "C64_newaxis",
    "C64_newaxis_refuted",
    "C64_scalar_refuted"
   ],
   "note": "Shape and elements for all arrays and keys whose slices have ordinary bounds (C25), if the key has an Ellipsis, no None, or entries for no axis or all axes; refusals for all keys. Refuted, for every key with None, no Ellipsis and entries for some of the axes: the shape is never that of NumPy. Refuted: arrays without axes."
  },
  {
   "property": "C65",
   "status": "partial",
   "theorems": [
    "C65_values_partial",
    "C65_read_back_partial",
    "C65_axes_refuted"
   ],
   "note": "Written and untouched elements for the keys of C64 and values that are broadcast to at most 8 axes; reading back. Refuted: values with additional axes of one element are refused."
  },
  {
   "property": "C66",
   "status": "partial",
   "theorems": [
    "C66_ints_partial",
    "C66_set_ints_partial",
    "C66_set_new_partial",
    "C66_mask_partial",
    "C66_set_mask_partial",
    "C66_range",
    "C66_shapes_refuted",
    "C66_apart_refuted",
    "C66_matrix_refuted",
    "C66_mask_refuted",
    "C66_mixed_refuted",
    "C66_value_refuted"
   ],
   "note": "Arrays of one shape, and masks with the shape of the first axes, with None before and after. Refuted: arrays of different shapes, new axes between arrays or after an array of two axes, masks of the wrong size, masks next to integers, values without the new axes."
  },
  {
   "property": "C67",
   "status": "partial",
   "theorems": [
    "C67_accepted",
    "C67_values",
    "C67_numpy_refuted"
   ],
   "note": "Every pair of shapes and operation; exact rational arithmetic. Refuted against NumPy: an axis of one element and an axis of none."
  },
  {
   "property": "C68",
   "status": "partial",
   "theorems": [
    "C68_sums",
    "C68_same",
    "C68_add",
    "C68_sub",
    "C68_mul",
    "C68_div",
    "C68_extremes",
    "C68_unary"
   ],
   "note": "Every pair of shapes; exact rational arithmetic. Division by its remainder of second order. Functions over the reals are in other claims."
  },
  {
   "property": "C69",
   "status": "partial",
   "theorems": [
    "C69_add2",
    "C69_operators",
    "C69_refused",
    "C69_by_zero",
    "C69_negate",
    "C69_augmented",
    "C69_augmented_refused",
    "C69_augmented_refuted",
    "C69_unlike_shape_refuted"
   ],
   "note": "Powers and @ are not modelled. Refuted: *= and /= with an array update the array; only sizes are compared in place."
  },
  {
   "property": "C70",
   "status": "partial",
   "theorems": [
    "C70_values",
    "C70_inverse",
    "C70_rounding",
    "C70_derivative",
    "C70_slope",
    "C70_unique",
    "C70_straight"
   ],
   "note": "Real numbers instead of floats. 45 functions; Erf, IsNaN, IsInf, ResetNaN and ResetInf are not modelled. Powers for positive bases and for integer exponents (not 0 to the 0)."
  },
  {
   "property": "C71",
   "status": "proved",
   "theorems": [
    "C71_unary",
    "C71_binary"
   ],
   "note": "All elementwise functions of C70 and C72."
  },
  {
   "property": "C72",
   "status": "partial",
   "theorems": [
    "C72_values",
    "C72_angle",
    "C72_first_partial",
    "C72_second_partial",
    "C72_cut_off_refuted",
    "C72_negative_refuted",
    "C72_label_refuted"
   ],
   "note": "Real numbers instead of floats. Refuted: BinaryCrossEntropy where the probability is cut off, EpsilonInsensitiveLoss with a negative epsilon; the label of SigmoidCrossEntropy has no gradient."
  },
  {
   "property": "C73",
   "status": "partial",
   "theorems": [
    "C73_softmax_partial",
    "C73_log_softmax_partial",
    "C73_distribution",
    "C73_shift",
    "C73_maximum",
    "C73_softmax_gradient_partial",
    "C73_log_softmax_gradient_partial",
    "C73_empty_refuted"
   ],
   "note": "Real numbers instead of floats; arrays with at least one element. Refuted: for arrays without elements the setup divides by zero."
  },
  {
   "property": "C74",
   "status": "partial",
   "theorems": [
    "C74_softmax_cross_entropy_partial",
    "C74_softmax_cross_entropy_gradient_partial",
    "C74_categorical_cross_entropy_partial",
    "C74_categorical_cross_entropy_gradient_partial",
    "C74_shape",
    "C74_classes_refuted",
    "C74_cut_off_refuted",
    "C74_kl_partial",
    "C74_kl_gradient_partial",
    "C74_kl_refuted",
    "C74_kl_axis_refuted",
    "C74_kl_refused"
   ],
   "note": "Real numbers instead of floats; labels below the number of classes. Refuted: labels that are no classes are not refused (another row, or past the end, is read); the gradient of CategoricalCrossEntropy below the cut-off; the gradients of KLMultinomial ignore the 1e-8 (the difference is proved); base axis 0 reads before the strides."
  },
  {
   "property": "C75",
   "status": "partial",
   "theorems": [
    "C75_prelu_partial",
    "C75_prelu_refused",
    "C75_prelu_gradient_partial",
    "C75_crelu_partial",
    "C75_crelu_gradient_partial",
    "C75_celu_partial",
    "C75_celu_gradient_partial",
    "C75_celu_zero_refuted"
   ],
   "note": "Real numbers instead of floats; arrays with at least one element. Refuted: the gradient of CELU at 0 with alpha other than 1."
  },
  {
   "property": "C76",
   "status": "partial",
   "theorems": [
    "C76_channel",
    "C76_roles",
    "C76_setup",
    "C76_forward_partial",
    "C76_recompute",
    "C76_standardized",
    "C76_running_refuted"
   ],
   "note": "Real numbers instead of floats. Refuted: with one element per channel the running variance stops being a number for ever."
  },
  {
   "property": "C77",
   "status": "partial",
   "theorems": [
    "C77_x_partial",
    "C77_three_partial",
    "C77_beta_partial",
    "C77_gamma_partial"
   ],
   "note": "Real numbers instead of floats; eps positive."
  },
  {
   "property": "C78",
   "status": "partial",
   "theorems": [
    "C78_forward_partial",
    "C78_modes_agree",
    "C78_x_partial",
    "C78_beta_partial",
    "C78_gamma_partial"
   ],
   "note": "Real numbers instead of floats; running variance plus eps positive for the gradients."
  },
  {
   "property": "C79",
   "status": "partial",
   "theorems": [
    "C79_counter",
    "C79_counter_refuted",
    "C79_total",
    "C79_sgd_partial",
    "C79_momentum_partial",
    "C79_nesterov_partial",
    "C79_sgdw_partial",
    "C79_lion_partial",
    "C79_adagrad_partial",
    "C79_rmsprop_partial",
    "C79_adadelta_partial",
    "C79_graves_partial"
   ],
   "note": "Real numbers instead of floats; histories of at most 2^32 - 2 updates. Refuted: a loaded counter of 2^32 - 1 wraps to 0."
  },
  {
   "property": "C80",
   "status": "partial",
   "theorems": [
    "C80_adam_partial",
    "C80_adam_constant_partial",
    "C80_adamw_partial",
    "C80_adamax_partial",
    "C80_adabound_partial",
    "C80_amsgrad_partial",
    "C80_amsbound_partial",
    "C80_amsbound_refuted",
    "C80_adabelief_partial",
    "C80_adabelief_refuted",
    "C80_rectified_partial"
   ],
   "note": "Real numbers instead of floats; histories of at most 2^32 - 2 updates; AdaBelief with amsgrad has no closed form here. Refuted: the upper bound of AMSBound grows with the updates instead of closing; with amsgrad AdaBelief adds epsilon to the maximum in every update."
  },
  {
   "property": "C81",
   "status": "partial",
   "theorems": [
    "C81_lars_partial",
    "C81_lars_bound_partial",
    "C81_lars_header_refuted",
    "C81_lamb_partial",
    "C81_lamb_moves_refuted",
    "C81_clip",
    "C81_clip_refuted",
    "C81_weight_decay",
    "C81_scale",
    "C81_decay_sgdw"
   ],
   "note": "Real numbers instead of floats. Refuted: zero weights do not move with Lamb; a clipping norm of zero does not clip; the header of Lars has another norm."
  },
  {
   "property": "C82",
   "status": "partial",
   "theorems": [
    "C82_unary_partial",
    "C82_first_partial",
    "C82_second_partial",
    "C82_elu_refuted",
    "C82_hard_sigmoid_refuted",
    "C82_absolute_error_refuted",
    "C82_label_refuted"
   ],
   "note": "Real numbers instead of floats; one element. Refuted: ELU at 0, HardSigmoid at the ends, AbsoluteError of equal arguments, label of BinaryCrossEntropy."
  },
  {
   "property": "C83",
   "status": "partial",
   "theorems": [
    "C83_derivatives_partial",
    "C83_unique",
    "C83_exist",
    "C83_square_refuted",
    "C83_tanh_refuted",
    "C83_sinc_refuted",
    "C83_label_refuted",
    "C83_input_refuted"
   ],
   "note": "Real numbers instead of floats; one element; graphs are trees; regular arguments. Refuted: third gradient of x ** 2 at 0, fourth of tanh at 0 and second of sinc at 0 are not numbers; computed labels get the gradient 0; an input has no gradient."
  },
  {
   "property": "C84",
   "status": "partial",
   "theorems": [
    "C84_add_partial",
    "C84_sub_partial",
    "C84_mul_partial",
    "C84_div_partial",
    "C84_maximum_partial",
    "C84_minimum_partial",
    "C84_maximum_refuted",
    "C84_minimum_refuted",
    "C84_broadcast_partial",
    "C84_broadcast_refuted",
    "C84_sum_partial",
    "C84_mean_partial",
    "C84_prod_partial",
    "C84_best_partial",
    "C84_max_partial",
    "C84_min_partial",
    "C84_max_refuted",
    "C84_mean_refuted",
    "C84_negative_refuted"
   ],
   "note": "Rational numbers instead of floats; positive extents; at most 8 axes for reductions; no zeros for Prod. Refuted: Maximum2, Minimum2 with broadcast inputs; Broadcast to more axes; axes counted from the end for Mean, Prod, Max, Min; equal greatest elements."
  },
  {
   "property": "C85",
   "status": "partial",
   "theorems": [
    "C85_memory_partial",
    "C85_resident_partial",
    "C85_types_refuted",
    "C85_no_function_refuted",
    "C85_before_refuted"
   ],
   "note": "One type for each array; what the callbacks do with arrays is described by the specification, not modelled from their code. Refuted: arrays with two types and programs without functions end in the checks for bugs; memory used before the first function is not checked."
  },
  {
   "property": "C86",
   "status": "partial",
   "theorems": [
    "C86_ends",
    "C86_exists_partial",
    "C86_nothing_first_refuted",
    "C86_together_refuted"
   ],
   "note": "The end of the search is proved for all orders; the existence of a schedule for one type for each array. Refuted: no access before and in the first function makes an index run below 0; arrays before and in the first function that fit only one after the other."
  },
  {
   "property": "C87",
   "status": "proved",
   "theorems": [
    "C87_preclear"
   ],
   "note": "All orders and types."
  },
  {
   "property": "C88",
   "status": "partial",
   "theorems": [
    "C88_search",
    "C88_unique",
    "C88_empty_refuted"
   ],
   "note": "All shapes with at least one element in each row. Refuted: a sequence of no elements is read outside its row. The gradient and not-a-number are not modelled."
  },
  {
   "property": "C89",
   "status": "partial",
   "theorems": [
    "C89_elements",
    "C89_slices",
    "C89_distinct",
    "C89_empty_refuted"
   ],
   "note": "All arrays with at least one element, under the contracts of std::sort and std::stable_sort. Refuted: an array of no elements makes the code read the first entry of an empty vector. The gradient is not modelled."
  },
  {
   "property": "C90",
   "status": "partial",
   "theorems": [
    "C90_nonzero",
    "C90_forward_refuted"
   ],
   "note": "Setup is right for all arrays. Refuted: a forward pass with new data leaves the indices of the data at setup."
  },
  {
   "property": "C91",
   "status": "partial",
   "theorems": [
    "C91_top_n",
    "C91_confusion",
    "C91_binary",
    "C91_binary_shapes",
    "C91_shapes",
    "C91_label_refuted"
   ],
   "note": "All shapes with labels that are classes. Refuted: TopNError takes the score of another sample for a label that is no class. Not-a-number is not modelled."
  },
  {
   "property": "C92",
   "status": "partial",
   "theorems": [
    "C92_formats",
    "C92_centered",
    "C92_onnx",
    "C92_number",
    "C92_same",
    "C92_one"
   ],
   "note": "All boxes, over rational numbers instead of floats."
  },
  {
   "property": "C93",
   "status": "partial",
   "theorems": [
    "C93_classes_partial",
    "C93_order_free_partial",
    "C93_ties_refuted",
    "C93_pairs_refuted",
    "C93_copied_refuted",
    "C93_refused"
   ],
   "note": "Rational numbers instead of floats, no not-a-number. Refuted: the documentation says that all pairs are compared and that only class probabilities change; suppressed boxes suppress no other, and the objectness is cut at the threshold. Refuted: the result for equal scores depends on std::sort."
  },
  {
   "property": "C94",
   "status": "partial",
   "theorems": [
    "C94_boxes_partial",
    "C94_pairs_partial",
    "C94_kept_partial"
   ],
   "note": "Rational numbers instead of floats, no not-a-number."
  },
  {
   "property": "C95",
   "status": "partial",
   "theorems": [
    "C95_selected_partial",
    "C95_refused",
    "C95_forward_refuted",
    "C95_determined"
   ],
   "note": "Rational numbers instead of floats, no not-a-number. Refuted: a forward pass with new data leaves the selection of the data at setup."
  },
  {
   "property": "C96",
   "status": "partial",
   "theorems": [
    "C96_values_partial",
    "C96_idempotent",
    "C96_errors",
    "C96_gradient",
    "C96_wide_refuted"
   ],
   "note": "Rational numbers instead of floats, no not-a-number. Values are for at most 31 bits for the size of numbers. Refuted: from 32 bits on, which are accepted, the cast to int overflows."
  },
  {
   "property": "C97",
   "status": "partial",
   "theorems": [
    "C97_values_partial",
    "C97_errors",
    "C97_gradient",
    "C97_unsigned_refuted"
   ],
   "note": "Rational numbers instead of floats: log2 is exact. Values are for at most 30 bits of exponent, where 1 << n does not overflow. Refuted: the documentation of the unsigned case rounds exponents down, the code to the nearest."
  },
  {
   "property": "C98",
   "status": "partial",
   "theorems": [
    "C98_quantize_partial",
    "C98_dequantize",
    "C98_round_trip_partial",
    "C98_shapes",
    "C98_gradients",
    "C98_inputs_refuted",
    "C98_types_refuted"
   ],
   "note": "Rational numbers instead of floats. Refuted: the zero point is rounded and saturated in place in the input; types other than BYTE and UBYTE are accepted although their range is not set."
  },
  {
   "property": "C99",
   "status": "partial",
   "theorems": [
    "C99_values_partial",
    "C99_zero_partial",
    "C99_error",
    "C99_gradients_partial",
    "C99_range_kept_refuted",
    "C99_documented_range_refuted"
   ],
   "note": "Rational numbers instead of floats; levels are integers; at most 8 axes; inputs within the initial values of Min and Max. Refuted: qr_max is changed without x_min_max when the range is under eps; the documented nudged range lacks parentheses."
  },
  {
   "property": "C100",
   "status": "partial",
   "theorems": [
    "C100_values_partial",
    "C100_all",
    "C100_gradient",
    "C100_empty_refuted",
    "C100_documented_refuted"
   ],
   "note": "Rational numbers instead of floats, no not-a-number. Refuted: an empty array is read outside of its bounds; for rate 1 the threshold is 1 above the documented one."
  },
  {
   "property": "C101",
   "status": "partial",
   "theorems": [
    "C101_values_partial",
    "C101_gradient_partial",
    "C101_errors",
    "C101_empty_refuted",
    "C101_scalar_refuted"
   ],
   "note": "Rational numbers instead of floats; fewer than 2^31 elements. Refuted: for arrays without elements the map of indices is written outside of its bounds; a scalar with no repetitions fails an assertion."
  },
  {
   "property": "C102",
   "status": "partial",
   "theorems": [
    "C102_trilu_partial",
    "C102_trilu_gradient_partial",
    "C102_eye",
    "C102_eye_errors",
    "C102_vector_refuted",
    "C102_empty_refuted"
   ],
   "note": "Rational numbers instead of floats. Refuted: Trilu reads outside of the shape of a vector and divides by 0 for empty matrices."
  },
  {
   "property": "C103",
   "status": "partial",
   "theorems": [
    "C103_values_partial",
    "C103_errors",
    "C103_gradient_partial",
    "C103_later_refuted",
    "C103_single_refuted"
   ],
   "note": "Rational numbers instead of floats; at most 8 inputs. Refuted: if neither of the first two inputs wants its gradient, the others do not get theirs; a single input that does not want it leads to a read outside of propagate_down."
  },
  {
   "property": "C104",
   "status": "partial",
   "theorems": [
    "C104_linspace_partial",
    "C104_linspace_one",
    "C104_linspace_errors",
    "C104_arange_partial",
    "C104_arange_errors",
    "C104_ends_refuted",
    "C104_rounding_refuted"
   ],
   "note": "Rational numbers instead of floats for the proofs. Refuted with floats: arange(16777216, 16777218) does not end, and rounding errors add up to one number too many in arange(0, 2.4, 0.3)."
  },
  {
   "property": "C105",
   "status": "partial",
   "theorems": [
    "C105_shape_partial",
    "C105_shape_errors",
    "C105_start_refuted",
    "C105_empty_refuted",
    "C105_shift_partial",
    "C105_shift_errors",
    "C105_wrap_refuted"
   ],
   "note": "Slices that are not empty and do not start before the first axis; elements of BitShift are integers in the range of the type. Refuted: a start before the first axis is read outside of the shape; an empty slice leaves the output as it was; a shift by 256 bits is none for unsigned char."
  },
  {
   "property": "C106",
   "status": "partial",
   "theorems": [
    "C106_value",
    "C106_same_partial",
    "C106_in_turn",
    "C106_replace_partial",
    "C106_no_inputs_refuted",
    "C106_first_unused_refuted",
    "C106_second_input_refuted"
   ],
   "note": "All graphs in which every function takes something, has the outputs that a new call gives it, and uses its outputs in order; values of a variable are unique. Refuted without: a function without inputs is an error; if the first output of a function is unused, users of the second are not connected. A dictionary replaces first inputs only. Gradients, ranks and copying of values are left out."
  },
  {
   "property": "C107",
   "status": "partial",
   "theorems": [
    "C107_remove_partial",
    "C107_batch_stat_partial",
    "C107_no_grad_partial",
    "C107_no_grad_outputs_refuted"
   ],
   "note": "Same conditions on graphs as C106. Refuted: NoGradModifier refuses functions with several outputs."
  },
  {
   "property": "C108",
   "status": "partial",
   "theorems": [
    "C108_folding_partial",
    "C108_fork_refuted",
    "C108_input_refuted",
    "C108_twice_refuted",
    "C108_shared_weight_refuted",
    "C108_frozen_refuted",
    "C108_again_refuted"
   ],
   "note": "Proved when each batch normalization follows an inner product of its own with a weight parameter in a scope of its own, or a function that is neither, and folding the numbers is right. Each condition is needed: otherwise the batch normalization is dropped, an error is raised, or parameters of another function or an earlier conversion are used (refuted)."
  },
  {
   "property": "C109",
   "status": "partial",
   "theorems": [
    "C109_self_folding_partial",
    "C109_second_network_refuted",
    "C109_add_bias_partial"
   ],
   "note": "Same conditions on graphs as C106; names of new parameters must be unused. Refuted: a second network that is converted gets the scales of the first."
  },
  {
   "property": "C110",
   "status": "partial",
   "theorems": [
    "C110_convolution_parameters",
    "C110_convolution_partial",
    "C110_no_bias_partial",
    "C110_deconvolution_partial",
    "C110_one_channel_refuted",
    "C110_one_channel_never",
    "C110_batch_axes_refuted",
    "C110_groups_refuted",
    "C110_deconvolution_bias_refuted"
   ],
   "note": "Rational numbers and any function for the square root. Proved through the model of the convolution (C52, C53), for one batch axis, several output channels, one group of a Deconvolution. Refuted otherwise: with one output channel, several batch axes or groups of a Deconvolution an assertion fails; the bias added to a Deconvolution has the number of inputs."
  },
  {
   "property": "C111",
   "status": "partial",
   "theorems": [
    "C111_accepted",
    "C111_rows",
    "C111_uniform_partial",
    "C111_affine_refuted",
    "C111_shape_refuted"
   ],
   "note": "Refuted: folding fails unless there are as many outputs as inputs, more than one, and then scales rows of the weights instead of columns. The values are kept only if all scales are equal (partial)."
  },
  {
   "property": "C112",
   "status": "partial",
   "theorems": [
    "C112_difference_partial",
    "C112_unscaled_partial",
    "C112_scaled_refuted",
    "C112_padding_refuted",
    "C112_affine_refuted",
    "C112_deconvolution_parameters",
    "C112_deconvolution_refuted"
   ],
   "note": "Convolution with one group and without padding: the exact error is proved; it vanishes if no channel is both scaled and shifted. Refuted: the bias uses weights that are already scaled; padding; Affine always raises; Deconvolution with a kernel of more than one pixel. For Deconvolution the folded parameters are proved, not the values."
  },
  {
   "property": "C113",
   "status": "proved",
   "theorems": [
    "C113_self_folding"
   ],
   "note": "With the model of broadcasting multiplication and addition (C67); rational numbers and any function for the square root."
  },
  {
   "property": "C114",
   "status": "partial",
   "theorems": [
    "C114_linear_values",
    "C114_documented",
    "C114_range",
    "C114_constant",
    "C114_corners",
    "C114_same_size",
    "C114_one_place_refuted"
   ],
   "note": "Refuted for half_pixel and one place on an axis: pixel 0 is taken instead of the middle. In all other cases the documented coordinates are proved. Rational numbers: rounding of the float scales is not modelled."
  },
  {
   "property": "C115",
   "status": "partial",
   "theorems": [
    "C115_nearest_values",
    "C115_old_is_nearest",
    "C115_nearest_refuted"
   ],
   "note": "Proved with half_pixel_for_nn. Refuted otherwise: the coordinate is cut down to a pixel, not rounded to the nearest."
  },
  {
   "property": "C116",
   "status": "proved",
   "theorems": [
    "C116_gradient",
    "C116_forward_total"
   ],
   "note": "Both modes, 1 to 3 axes. Rational numbers; the loops over samples are done in order."
  },
  {
   "property": "C117",
   "status": "partial",
   "theorems": [
    "C117_setup",
    "C117_scale",
    "C117_size_first",
    "C117_needs_one",
    "C117_accepted_but_fails_refuted"
   ],
   "note": "Refuted: channel_last and empty axes pass setup but fail in both passes on the CPU."
  },
  {
   "property": "C118",
   "status": "partial",
   "theorems": [
    "C118_with_replacement",
    "C118_share",
    "C118_positive",
    "C118_accepted",
    "C118_positive_weights_refuted"
   ],
   "note": "Proved for numbers below 1. Refuted if the conversion from double to float rounds a number up to the sum of the weights: then the last element is taken even if its weight is 0. That the generator is uniform is not modelled."
  },
  {
   "property": "C119",
   "status": "partial",
   "theorems": [
    "C119_without_replacement",
    "C119_picked",
    "C119_ends",
    "C119_refused",
    "C119_negative_weights_refuted",
    "C119_ends_refuted"
   ],
   "note": "The joint distribution of the samples is not stated. Refuted: negative weights are not refused, and with them the loop may never end."
  },
  {
   "property": "C120",
   "status": "proved",
   "theorems": [
    "C120_gradient",
    "C120_weights_gradient",
    "C120_recompute",
    "C120_generators",
    "C120_shape"
   ],
   "note": "Generators are lists of the numbers they will give."
  },
  {
   "property": "C121",
   "status": "proved",
   "theorems": [
    "C121_values",
    "C121_overwritten"
   ],
   "note": "Elements are rational numbers, without rounding."
  },
  {
   "property": "C122",
   "status": "proved",
   "theorems": [
    "C122_gradient"
   ],
   "note": "The two images are different variables."
  },
  {
   "property": "C123",
   "status": "partial",
   "theorems": [
    "C123_accepted",
    "C123_shape",
    "C123_channels_first",
    "C123_channels_last",
    "C123_large_patch_refuted"
   ],
   "note": "Refuted: patches larger than the padded image are not refused, and can give negative sizes with a positive product. Tuples longer than needed are not covered."
  },
  {
   "property": "C124",
   "status": "partial",
   "theorems": [
    "C124_linear",
    "C124_nearest",
    "C124_reflection_unique",
    "C124_channel_last"
   ],
   "note": "Grids of images (two-dimensional) only, elements are rational numbers without rounding."
  },
  {
   "property": "C125",
   "status": "partial",
   "theorems": [
    "C125_gradient"
   ],
   "note": "Grids of images (two-dimensional) only."
  },
  {
   "property": "C126",
   "status": "partial",
   "theorems": [
    "C126_affine",
    "C126_identity",
    "C126_one_pixel_refuted"
   ],
   "note": "Sizes of at least two. Refuted for an axis with one pixel: its target is zero divided by zero. Grids of images (two-dimensional) only."
  },
  {
   "property": "C127",
   "status": "partial",
   "theorems": [
    "C127_gradient",
    "C127_refused"
   ],
   "note": "Grids of images (two-dimensional) only. At the borders between pieces and cells the derivative does not exist and nothing is stated."
  },
  {
   "property": "C128",
   "status": "partial",
   "theorems": [
    "C128_groups",
    "C128_cut_unique",
    "C128_consecutive",
    "C128_waits",
    "C128_all_written_refuted",
    "C128_restart_refuted"
   ],
   "note": "Refuted: values after the last full interval are not written, and if indices start again nothing is written until they pass the last written one. Formatting of the lines, file names and the log are left out."
  },
  {
   "property": "C129",
   "status": "partial",
   "theorems": [
    "C129_times",
    "C129_images"
   ],
   "note": "What the images look like, formatting and files are left out."
  },
  {
   "property": "C130",
   "status": "partial",
   "theorems": [
    "C130_setup",
    "C130_refused",
    "C130_values",
    "C130_expected",
    "C130_seeded",
    "C130_recompute",
    "C130_recompute_again"
   ],
   "note": "Random numbers are any sequence of rationals; rounding of 1 / (1 - p) to float is left out."
  },
  {
   "property": "C131",
   "status": "partial",
   "theorems": [
    "C131_gradient",
    "C131_not_wanted",
    "C131_graph",
    "C131_found",
    "C131_repeat_refuted",
    "C131_two_functions_refuted"
   ],
   "note": "Refuted: backward cannot be repeated after one forward, as the mask is cleared; of two Dropouts with the same input the graph derivative of the first takes the mask of the second. Rounding is left out."
  },
  {
   "property": "C132",
   "status": "partial",
   "theorems": [
    "C132_sum",
    "C132_product",
    "C132_none_refuted"
   ],
   "note": "Refuted: without active inputs the output stays what it was. Rounding and shapes are left out."
  },
  {
   "property": "C133",
   "status": "partial",
   "theorems": [
    "C133_sum",
    "C133_product",
    "C133_not_wanted",
    "C133_zero_refuted",
    "C133_inactive_refuted"
   ],
   "note": "Refuted: where the element of an input of MulN is 0 its gradient is not a number; the gradient of an inactive input stays what it was even if it is not to be added to. Rounding and shapes are left out."
  },
  {
   "property": "C134",
   "status": "partial",
   "theorems": [
    "C134_values",
    "C134_accepted",
    "C134_running",
    "C134_global",
    "C134_recompute",
    "C134_limit_refuted"
   ],
   "note": "Refuted: at the greatest int the count overflows before std::min is taken. Setup and rounding are left out."
  },
  {
   "property": "C135",
   "status": "partial",
   "theorems": [
    "C135_own_part",
    "C135_global",
    "C135_not_wanted",
    "C135_gradient_refuted"
   ],
   "note": "Refuted: in training backward leaves out what an input does to the outputs of the other samples (the header says that it is approximated). Setup and rounding are left out."
  },
  {
   "property": "C136",
   "status": "partial",
   "theorems": [
    "C136_forward",
    "C136_clip",
    "C136_bounds",
    "C136_accepted",
    "C136_setup",
    "C136_bounds_refuted",
    "C136_shapes_refuted"
   ],
   "note": "Refuted: shapes need not be equal, only sizes be above 0, so that bounds and shapes are read past their ends; scalars are refused; the gradients of the bounds stay if that of the first input is not wanted. Rounding is left out."
  },
  {
   "property": "C137",
   "status": "partial",
   "theorems": [
    "C137_mod",
    "C137_mod_unique",
    "C137_undefined",
    "C137_fmod",
    "C137_fmod_unique",
    "C137_float",
    "C137_used",
    "C137_by_zero",
    "C137_double",
    "C137_fmod_refuted"
   ],
   "note": "Refuted: with fmod, integers beyond 2^53 are rounded to doubles before the remainder is taken. Rounding of floating-point numbers and broadcasting are left out."
  },
  {
   "property": "C138",
   "status": "partial",
   "theorems": [
    "C138_values",
    "C138_gradient",
    "C138_size",
    "C138_two_axes_refuted",
    "C138_sample_axis_refuted"
   ],
   "note": "Proved for base_axis 1 and axes after it. Refuted: with two sample axes samples share flips and some flips are never used; if the sample axis is turned as well gradients are taken from the wrong element. Arrays with one axis and setup are left out."
  },
  {
   "property": "C139",
   "status": "partial",
   "theorems": [
    "C139_values"
   ],
   "note": "Setup, rounding, and floors that do not fit the type of the index are left out."
  },
  {
   "property": "C140",
   "status": "partial",
   "theorems": [
    "C140_data",
    "C140_slopes",
    "C140_flow"
   ],
   "note": "At whole places the gradient of the flow is the slope to the right. Setup and rounding are left out."
  },
  {
   "property": "C141",
   "status": "partial",
   "theorems": [
    "C141_mirror",
    "C141_values",
    "C141_amount",
    "C141_far_refuted"
   ],
   "note": "Proved for base_axis 1, shifts of the axes after it, and, if mirrored, limits up to twice the size. Refuted: mirrored shifts beyond twice the size take the wrong elements, because the absolute value is taken of a negative place. Arrays with one axis and setup are left out."
  },
  {
   "property": "C142",
   "status": "partial",
   "theorems": [
    "C142_gradient",
    "C142_linear",
    "C142_two_axes_refuted"
   ],
   "note": "Refuted: with two sample axes samples share shifts and some shifts are never used. Setup and rounding are left out."
  },
  {
   "property": "C143",
   "status": "partial",
   "theorems": [
    "C143_values",
    "C143_start",
    "C143_setup",
    "C143_gradient",
    "C143_setup_refuted",
    "C143_two_axes_refuted"
   ],
   "note": "Values are proved for base_axis 1 and crops of the axes after it. Refuted: more sizes to crop to than axes are not refused, but read before the start of the shape; with two sample axes samples share cuts and some cuts are never used. Arrays with one axis and negative sizes are left out."
  }
 ]
}