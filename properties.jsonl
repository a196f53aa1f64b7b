{"id": "C01", "title": "Leaving a parameter scope restores the surrounding scope", "statement": "Whatever the body of `with nn.parameter_scope(name)` does - create, look up, replace or pop parameters, open further scopes, or raise - after the block the current scope is the one that was current before it, and parameters outside the opened sub-scope are untouched by operations made inside it.", "quantifier": "every tree of registered parameters, every scope name string, every nested program of parameter operations, normal or exceptional exit", "why_tests_cant": "a test fixes a handful of programs; the claim is about every nesting and every exception point", "anchors": ["python/src/nnabla/parameter.py:parameter_scope", "python/src/nnabla/parameter.py:set_parameter", "python/src/nnabla/parameter.py:get_parameter"]}
{"id": "C02", "title": "The parameter registry behaves like a map from path names to variables", "statement": "After any history of parameter operations, get_parameters() lists every registered parameter exactly once under its full slash-joined path; set_parameter(k,v) makes get_parameter(k) return v and changes the value at no other name; pop_parameter(k) removes exactly k; get_parameter of an unregistered name returns None and registers nothing.", "quantifier": "every history of set/get/pop/get_parameters calls with arbitrary names", "why_tests_cant": "the registry is a mutable tree with lookups that create scopes on the way; only an induction over histories excludes a stale, duplicated or lost name", "anchors": ["python/src/nnabla/parameter.py:get_parameter", "python/src/nnabla/parameter.py:set_parameter", "python/src/nnabla/parameter.py:pop_parameter", "python/src/nnabla/parameter.py:get_parameters"]}
{"id": "C03", "title": "get_parameter_or_create shares storage and rejects shape changes", "statement": "The first call for a name creates and registers one variable of the requested shape; each later call with the same shape returns a variable sharing that storage and never re-initialises it; a call with another shape raises and leaves the registry unchanged. The returned variable needs a gradient iff requested and not under nn.no_grad().", "quantifier": "every history of calls with arbitrary names, shapes, need_grad flags and no_grad nesting", "why_tests_cant": "depends on the whole history of the global registry", "anchors": ["python/src/nnabla/parameter.py:get_parameter_or_create", "python/src/nnabla/parameter.py:no_grad"]}
{"id": "C04", "title": "Worker slices of a data set cover it and stay inside it", "statement": "Slicing an iterator for num_of_slices workers gives every worker a contiguous in-range window of the same length; together the windows contain every example; with drop_last they are pairwise disjoint and lose fewer than num_of_slices examples.", "quantifier": "every data-set size, every number of workers, every rank", "why_tests_cant": "the windows are computed by modular arithmetic with a shift-back case; the corner cases are where tests are absent", "anchors": ["python/src/nnabla/utils/data_iterator.py:DataIterator.slice"]}
{"id": "C05", "title": "Unshuffled iteration visits the examples cyclically in order", "statement": "Without shuffling, the batches returned by next() concatenate to 0,1,...,size-1,0,1,... ; the epoch counter equals the number of completed passes, and the epoch callbacks fire once per completed pass.", "quantifier": "every size, batch size (including larger than the data set) and number of calls", "why_tests_cant": "requires all sizes and any number of calls", "anchors": ["python/src/nnabla/utils/data_iterator.py:DataIterator._next", "python/src/nnabla/utils/data_iterator.py:DataIterator.next"]}
{"id": "C06", "title": "Shuffled iteration visits every example exactly once per epoch", "statement": "With shuffling on, the examples delivered in one epoch are a permutation of the data set.", "quantifier": "every size, batch size, sequence of random permutations and number of epochs", "why_tests_cant": "the random order can be any permutation and the batch may straddle the epoch boundary", "anchors": ["python/src/nnabla/utils/data_iterator.py:DataIterator._next", "python/src/nnabla/utils/data_source_implements.py:SimpleDataSource", "python/src/nnabla/utils/data_source_implements.py:CsvDataSource"]}
{"id": "C07", "title": "stop_exhausted iteration delivers each example at most once and then stops", "statement": "With stop_exhausted, next() returns exactly floor(size/batch) full batches, no example twice, and after that every further batch request signals exhaustion.", "quantifier": "every size, batch size and number of calls", "why_tests_cant": "needs all sizes and call counts", "anchors": ["python/src/nnabla/utils/data_iterator.py:DataIterator._next"]}
{"id": "C08", "title": "The on-memory cache is transparent", "statement": "A data source wrapped with the memory cache delivers, position by position, what the unwrapped source would have delivered under the same shuffles; in particular each epoch delivers every example once.", "quantifier": "every data source, every sequence of next/reset calls and every shuffle", "why_tests_cant": "the cache fills during the first pass and any reset may interrupt it", "anchors": ["python/src/nnabla/utils/data_source.py:DataSourceWithMemoryCache"]}
{"id": "C09", "title": "The file cache is transparent", "statement": "A data source wrapped with the file cache returns exactly the example of the wrapped source at every position, whatever the cache size, and after each shuffling reset delivers a permutation of the data set.", "quantifier": "every number of examples, cache size and shuffle", "why_tests_cant": "the cache splits the data into files with a short last file and position tables rebuilt at each reset", "anchors": ["python/src/nnabla/utils/data_source.py:DataSourceWithFileCache"]}
{"id": "C10", "title": "Concatenating data sources appends them", "statement": "The example at position i of a concatenated source is the example at the corresponding position of the source containing it; the size is the sum of the sizes.", "quantifier": "every list of sources, every position", "why_tests_cant": "switching points are searched in a prefix-sum table; boundaries between sources are the risk", "anchors": ["python/src/nnabla/utils/data_source_implements.py:ConcatDataSource"]}
{"id": "C11", "title": "Forward runs every needed function exactly once, after its inputs", "statement": "variable.forward() executes each function the variable depends on exactly once and only after all functions producing its inputs, and leaves in the variable the value obtained by composing the functions; nn.forward_all on several outputs executes shared functions once.", "quantifier": "every acyclic graph with any sharing, any list of requested outputs", "why_tests_cant": "graph shapes are unbounded; tests use chains and diamonds", "anchors": ["src/nbla/computation_graph/variable.cpp:CgVariable::visit_function_recursive", "src/nbla/computation_graph/variable.cpp:CgVariable::forward", "src/nbla/computation_graph/computation_graph.cpp:forward_all"]}
{"id": "C12", "title": "Clearing intermediate buffers never changes a forward result", "statement": "forward(clear_buffer=True) and forward(clear_no_need_grad=True) give the same output value as plain forward, and never discard a leaf, a persistent variable or the requested output.", "quantifier": "every acyclic graph with sharing, in-place functions and persistent flags", "why_tests_cant": "an array is released at its last use; whether a use is the last depends on the whole graph", "anchors": ["src/nbla/computation_graph/variable.cpp:ForwardCallback"]}
{"id": "C13", "title": "Backward computes the sum over all paths and accumulates into leaves", "statement": "variable.backward() adds to the gradient of every leaf that needs it exactly the sum, over all dependency paths from the variable, of the chained local derivatives applied to the initial gradient; every function is run backward at most once; gradients of variables that need none are untouched.", "quantifier": "every acyclic graph with any sharing, any initial gradients, any need_grad assignment", "why_tests_cant": "the accumulate/overwrite decision depends on visiting order over the whole graph", "anchors": ["src/nbla/computation_graph/variable.cpp:CgVariable::visit_function_backward", "src/nbla/computation_graph/variable.cpp:BackwardCallback"]}
{"id": "C14", "title": "nn.grad returns the same gradients as backward", "statement": "nn.grad(outputs, inputs) builds a graph whose value is, for each input, the sum over all paths from all outputs.", "quantifier": "every acyclic graph, every list of outputs and inputs", "why_tests_cant": "needs all graph shapes, including several outputs of one function", "anchors": ["python/src/nnabla/grad.py:Grad"]}
{"id": "C15", "title": "Reading an array returns the last value written to it", "statement": "Whatever sequence of reads and writes in whatever data types and devices, zero, fill and clear is applied to an array, a read returns the value last written (converted between types), zero after zero(), the fill value after fill(), and lazily requested zero/fill is never lost or applied over a later write.", "quantifier": "every history of get/cast/zero/fill/clear with arbitrary dtype/context keys", "why_tests_cant": "several cached copies with a head pointer and lazy flags; only an invariant over histories rules out a stale copy", "anchors": ["src/nbla/synced_array.cpp:SyncedArray"]}
{"id": "C16", "title": "Live allocations never overlap and are large enough", "statement": "Blocks handed out by the caching allocator and not yet freed are pairwise disjoint, lie inside one obtained chunk of their device, and have at least the requested size.", "quantifier": "every history of allocations, frees, cache releases and out-of-memory failures over several devices", "why_tests_cant": "splitting and merging of linked blocks over unbounded histories", "anchors": ["src/nbla/memory/caching_allocator_with_buckets.cpp", "src/nbla/memory/memory.cpp", "src/nbla/memory/allocator.cpp"]}
{"id": "C17", "title": "Allocator statistics are exact", "statement": "The reported used bytes equal the total size of the chunks currently held, the reported used counts equal the numbers of live small and large blocks, and after everything is freed releasing the caches returns every chunk.", "quantifier": "every history of allocations, frees, cache releases and failures", "why_tests_cant": "accounting drifts only show over long histories", "anchors": ["src/nbla/memory/caching_allocator_with_buckets.cpp", "src/nbla/memory/allocator.cpp"]}
{"id": "C18", "title": "solver.set_parameters overwrites or adds parameters", "statement": "After set_parameters(dict, reset=False) the solver optimises exactly the given variables for the given names plus its earlier other ones; with retain_state=True states of existing names are kept; with reset=True only the given ones remain.", "quantifier": "every history of set/remove/clear parameter calls", "why_tests_cant": "depends on the history of keys already registered", "anchors": ["src/nbla/solver.cpp:Solver::set_parameters", "python/src/nnabla/solver.pyx.tmpl:set_parameters"]}
{"id": "C19", "title": "Solver hooks bracket each parameter update", "statement": "The pre hook runs immediately before and the post hook immediately after every parameter's update / weight decay / gradient check.", "quantifier": "every parameter set and every hook", "why_tests_cant": "order of side effects relative to the update for every parameter", "anchors": ["src/nbla/solver.cpp:Solver::update", "src/nbla/solver.cpp:ScopedCallback"]}
{"id": "C20", "title": "Solver state round-trips through save_states / load_states", "statement": "load_states(f) after save_states(f) on a solver with the same parameters restores every state array and the iteration counter of every parameter.", "quantifier": "every set of parameter names and states", "why_tests_cant": "names can be prefixes of one another", "anchors": ["python/src/nnabla/solver.pyx.tmpl:load_states", "python/src/nnabla/utils/get_file_handle.py:load_solve_state_from_h5"]}
{"id": "C21", "title": "Dynamic loss scaling never applies an overflowed gradient", "statement": "DynamicLossScalingUpdater.update applies the solver update only with gradients free of inf/nan, rescaled by the scale they were computed with; on overflow it divides the scale and retries; after N consecutive successful updates the scale is multiplied.", "quantifier": "every sequence of overflow outcomes, every scaling factor and interval", "why_tests_cant": "depends on arbitrary sequences of overflow events", "anchors": ["python/src/nnabla/experimental/mixed_precision_training.py:DynamicLossScalingUpdater"]}
{"id": "C22", "title": "Learning-rate schedules stay in range and are monotone", "statement": "For every iteration the polynomial, exponential, step and warm-up schedulers return the documented value; the rate never exceeds the initial rate, never becomes negative, and (warm-up aside) never increases.", "quantifier": "every iteration number, every schedule parameter in its documented range", "why_tests_cant": "unbounded iteration counts", "anchors": ["python/src/nnabla/utils/learning_rate_scheduler.py"]}
{"id": "C23", "title": "Parameter files round-trip", "statement": "load_parameters(f) after save_parameters(f) registers the same names with the same values, need_grad flags and order.", "quantifier": "every tree of parameters", "why_tests_cant": "arbitrary nesting and names", "anchors": ["python/src/nnabla/parameter.py:save_parameters", "python/src/nnabla/parameter.py:load_parameters", "python/src/nnabla/utils/get_file_handle.py"]}
{"id": "C24", "title": "Packing and unpacking variable-length sequences are inverse", "statement": "pad_packed_sequence(pack_padded_sequence(x, lengths)) returns x with padding set to zero together with the original lengths, in batch_first and time-first layout, also with enforce_sorted=False.", "quantifier": "every batch size, length vector, feature size and content", "why_tests_cant": "index arithmetic over arbitrary length vectors", "anchors": ["src/nbla/function/generic/pack_padded_sequence.cpp", "src/nbla/function/generic/pad_packed_sequence.cpp", "include/nbla/function/utils/rnn.hpp", "python/src/nnabla/utils/rnn.py"]}
{"id": "C25", "title": "Slicing selects exactly the elements Python slicing selects", "statement": "x[start:stop:step] has per axis the length and the elements of Python's slice(start,stop,step), reads only inside x, and its backward adds each output gradient to the element it came from.", "quantifier": "every axis size, start, stop and step (None, negative, out of range)", "why_tests_cant": "three integers and a size with many sign cases", "anchors": ["src/nbla/function/generic/slice.cpp", "python/src/nnabla/_indexing.pyx"]}
{"id": "C26", "title": "Flat and multi-dimensional indices convert without loss", "statement": "For every shape, converting a multi-index to a flat offset and back is the identity, offsets of distinct indices are distinct and below the size, and repeated increment enumerates all indices in offset order exactly once.", "quantifier": "every shape and index", "why_tests_cant": "all ranks and sizes", "anchors": ["include/nbla/utils/nd_index.hpp"]}
{"id": "C27", "title": "A loaded network executes every function once in dependency order", "statement": "Walking a proto network (ProtoNetwork.execute_on_proto / forward_sequence) calls back each function an output depends on exactly once, after the producers of its inputs, and terminates.", "quantifier": "every acyclic network with any sharing and any number of outputs", "why_tests_cant": "explicit-stack traversal with duplicates; needs all graphs", "anchors": ["python/src/nnabla/core/graph_def.py:ProtoNetwork.execute_on_proto"]}
{"id": "C28", "title": "Generated names in a graph definition are unique", "statement": "The names generated for functions and variables when a graph definition is recorded are pairwise distinct.", "quantifier": "every sequence of requested name prefixes", "why_tests_cant": "collisions depend on the sequence of prefixes", "anchors": ["python/src/nnabla/core/graph_def.py:_get_unique_name"]}
{"id": "C29", "title": "Removing identity functions preserves the network", "statement": "After IdentityRemover every network output still computes the same value, no dangling name is left, and recorded renamings lead to existing variables.", "quantifier": "every acyclic network with identity functions anywhere", "why_tests_cant": "rewrites interact when identities share inputs or outputs", "anchors": ["python/src/nnabla/core/graph_optimizer.py:remove_function", "python/src/nnabla/core/graph_optimizer.py:IdentityRemover"]}
{"id": "C30", "title": "Context and flag scopes nest", "statement": "context_scope, no_grad, auto_forward and recompute blocks restore the previous setting on exit for every nesting and every exception point.", "quantifier": "every nesting program", "why_tests_cant": "all nestings and exception points", "anchors": ["python/src/nnabla/context.py", "python/src/nnabla/parameter.py:no_grad", "python/src/nnabla/auto_forward.pyx"]}
{"id": "C31", "title": "Prefetching cache readers deliver the requested examples", "statement": "With prefetch, the example delivered at every position equals the one read directly from the cache file, whatever was prefetched.", "quantifier": "every access sequence and every prefetch schedule", "why_tests_cant": "depends on the interleaving of prefetches and reads", "anchors": ["python/src/nnabla/utils/data_source_implements.py:CacheReaderWithPrefetch", "python/src/nnabla/utils/data_source_implements.py:CachePrefetcher"]}
{"id": "C32", "title": "CSV headers and rows are assigned to the right variables", "statement": "Each CSV column NAME[__INDEX][:LABEL] contributes to variable NAME at the position given by its index, every non-comment column is used exactly once.", "quantifier": "every header row", "why_tests_cant": "arbitrary orders of indexed columns", "anchors": ["python/src/nnabla/utils/data_source_implements.py:CsvDataSource"]}
{"id": "C33", "title": "A sliced iterator delivers exactly its window", "statement": "The iterator returned by slice(slice_start, slice_end) delivers, epoch after epoch, the examples slice_start..slice_end-1 of the sliced iterator and nothing else.", "quantifier": "every source kind, window, batch size and number of calls", "why_tests_cant": "the slice shares the state of the source it was made from; errors only show after several epochs", "anchors": ["python/src/nnabla/utils/data_source.py:SlicedDataSource", "python/src/nnabla/utils/data_iterator.py:DataIterator.slice"]}
{"id": "C34", "title": "The workers together see every example in every epoch", "statement": "If every worker slices an identically seeded source by its rank (without drop_last), then in each epoch every example is delivered to at least one worker.", "quantifier": "every data size, number of workers, batch size, shuffle and epoch", "why_tests_cant": "needs all workers' random orders to agree in every epoch", "anchors": ["python/src/nnabla/utils/data_source.py:SlicedDataSource", "python/src/nnabla/utils/data_iterator.py:DataIterator.slice", "python/src/nnabla/utils/data_source_implements.py:SimpleDataSource"]}
{"id": "C35", "title": "Fused weight decay is used by exactly the next update", "statement": "In solvers that fuse weight decay into the update, weight_decay(r) touches no gradient; the next update() uses r, and later updates use the default rate again. In the other solvers update() never applies a weight decay of its own.", "quantifier": "every solver and every sequence of solver calls", "why_tests_cant": "the pending rate is hidden state carried between calls", "anchors": ["src/nbla/solver.cpp:Solver::weight_decay", "src/nbla/solver.cpp:Solver::update"]}
{"id": "C36", "title": "clear_no_need_grad keeps every array the backward pass will read", "statement": "After forward(clear_no_need_grad=True) (or plain forward), every input or output whose data the backward of an executed function that needs gradients declares to depend on (grad_depends_input_data / grad_depends_output_data), unless it is marked for recomputation, still holds its forward value; forward also leaves in every executed function its need-gradient state and its rank (longest path).", "quantifier": "every acyclic graph, dependency declaration and need_grad assignment", "why_tests_cant": "which use is the last, and which function still needs the data, depends on the whole graph", "anchors": ["src/nbla/computation_graph/variable.cpp:ForwardCallback::get_clear_flags", "src/nbla/computation_graph/computation_graph.cpp:forward_all"]}
{"id": "C37", "title": "forward_all leaves the persistent flags of the requested variables unchanged", "statement": "nn.forward_all sets the persistent flag of the requested variables for the duration of the call and afterwards every variable has the flag it had before.", "quantifier": "every list of requested variables and every initial flag assignment", "why_tests_cant": "only lists of distinct variables are ever tested", "anchors": ["src/nbla/computation_graph/computation_graph.cpp:forward_all"]}
{"id": "C38", "title": "The reference count of a variable is the number of its uses", "statement": "function_reference_count of a variable equals the number of input positions at which existing functions take it.", "quantifier": "every history of function creations and destructions", "why_tests_cant": "needs histories with destroyed functions", "anchors": ["src/nbla/computation_graph/variable.cpp:CgVariable::insert_function_reference", "src/nbla/computation_graph/variable.cpp:CgVariable::remove_function_reference"]}
{"id": "C39", "title": "Narrowed arrays are views on the array they were narrowed from", "statement": "Arrays obtained by (repeated) narrow share their elements with the original: a write, zero or fill through any of them is seen through all others at the shifted position, in whatever data type each is read, until the view is destroyed; a narrow outside the range or overlapping a sibling raises and changes nothing.", "quantifier": "every history of get/cast/zero/fill/clear/narrow/drop over any tree of views", "why_tests_cant": "each view has its own cached copies, flags and head; whether a lazy request of one view reaches the others depends on the order of calls along the whole tree", "anchors": ["src/nbla/synced_array.cpp:SyncedArray", "src/nbla/nd_array.cpp:NdArray::narrow"]}
{"id": "C40", "title": "Graph definition scopes restore the builder", "statement": "graph, graph_name and module_scope blocks of graph_def give back the previous graph builder, graph name and module stack on exit.", "quantifier": "every nesting program with exceptions", "why_tests_cant": "nesting depths and exception points are unbounded", "anchors": ["python/src/nnabla/core/graph_def.py:1509-1665"]}
{"id": "C41", "title": "Half to float is exact and comes back", "statement": "Every 16-bit half, converted to float, keeps its sign and exactly its value (infinities stay infinite, NaNs stay NaN), and converting the result to half gives the same 16 bits.", "quantifier": "every bit pattern of a half", "why_tests_cant": "the conversion passes through shifts, a re-biased exponent and a float temporary; the existing tests try a handful of values", "anchors": ["include/nbla/float_bits.hpp:upconvert_bits", "include/nbla/half.hpp:halfbits2float", "include/nbla/half.hpp:float2halfbits"]}
{"id": "C42", "title": "Float to half rounds to nearest even", "statement": "Converting a float to half gives the half nearest to it, ties to the even one; from 65520 on it gives infinity; sign, infinities and NaNs are kept; and the conversion never reverses the order of two numbers.", "quantifier": "every bit pattern of a float", "why_tests_cant": "2^32 inputs; the wrong cases (bits shifted out before rounding below 2^-14) are between the values one would try", "anchors": ["include/nbla/float_bits.hpp:downconvert_bits", "include/nbla/float_bits.hpp:round_ties_to_even", "include/nbla/half.hpp:float2halfbits"]}
{"id": "C43", "title": "Comparisons of halfs agree with the numbers", "statement": "The operators < > <= >= == != on halfs, and on a half and a float, agree with the comparison of the represented numbers, and numeric_limits<Half> gives the smallest normal and the largest half.", "quantifier": "every pair of bit patterns", "why_tests_cant": "2^32 pairs; signed zeros and NaNs are compared by bits in one overload and as floats in the others", "anchors": ["src/nbla/half.cpp:149-179", "include/nbla/half.hpp:246-252"]}
{"id": "C44", "title": "Shift, flip, pad, broadcast and transpose pick the right elements", "statement": "The forward pass of each of these functions writes every element of the output exactly once, reads only inside the input, and output element idx is the input element the definition of the function names: shifted or padded positions extended by the border mode, flipped axes reversed, trailing axes aligned for broadcasting, axes permuted for transposing.", "quantifier": "every shape, number of dimensions and parameter, every input", "why_tests_cant": "the position is computed by recursion over strides, by merging axes that stay adjacent, or by an index counter; tests fix a few shapes", "anchors": ["src/nbla/function/generic/shift.cpp", "src/nbla/function/generic/flip.cpp", "src/nbla/function/generic/pad.cpp", "src/nbla/function/generic/broadcast.cpp", "src/nbla/function/generic/transpose.cpp"]}
{"id": "C45", "title": "Gathers and diagonals pick the right elements", "statement": "gather_nd, gather with batch dimensions, embed, matrix_diag_part and matrix_diag read the element at the position given by the index array (negative positions counted from the end where allowed), and positions outside are rejected.", "quantifier": "every shape and every index array", "why_tests_cant": "depends on the contents of a second array and on the folding of several axes into one", "anchors": ["src/nbla/function/generic/gather_nd.cpp", "src/nbla/function/generic/gather.cpp", "src/nbla/function/generic/embed.cpp", "src/nbla/function/generic/matrix_diag_part.cpp", "src/nbla/function/generic/matrix_diag.cpp"]}
{"id": "C46", "title": "The gradient of an element-copying function is its adjoint", "statement": "For each of these functions the backward pass computes the adjoint of the linear map of the forward pass: <dx, x> = <dy, f(x)> for all x, added to the previous gradient when accum is set and replacing it otherwise.", "quantifier": "every shape, parameter, index array, gradient and input", "why_tests_cant": "numerical gradient tests compare a few random arrays, and always start from a cleared gradient", "anchors": ["src/nbla/function/generic/shift.cpp:backward_impl", "src/nbla/function/generic/flip.cpp:backward_impl", "src/nbla/function/generic/pad.cpp:backward_impl", "src/nbla/function/generic/broadcast.cpp:backward_impl", "src/nbla/function/generic/transpose.cpp:backward_impl", "src/nbla/function/generic/gather_nd.cpp:backward_impl", "src/nbla/function/generic/gather.cpp:backward_impl", "src/nbla/function/generic/embed.cpp:backward_impl", "src/nbla/function/generic/matrix_diag_part.cpp", "src/nbla/function/generic/matrix_diag.cpp"]}
{"id": "C47", "title": "Concatenate, stack and split place and return every element", "statement": "Concatenate puts the inputs one after another along the axis, stack makes input c entry c of a new axis, split returns entry c of the axis as output c; split undoes stack and stack undoes split; shapes that do not fit are refused; and the backward pass gives each input the part of the output gradient made from it, added when accum is set and replacing otherwise, leaving inputs that do not need a gradient alone.", "quantifier": "every number of inputs, shape, axis (also negative) and content", "why_tests_cant": "the loops run over products of leading and trailing sizes with offsets that depend on all previous inputs; tests use two or three small arrays and a cleared gradient", "anchors": ["src/nbla/function/generic/concatenate.cpp", "src/nbla/function/generic/stack.cpp", "src/nbla/function/generic/split.cpp"]}
{"id": "C48", "title": "Cumulative sums and products and their derivatives", "statement": "Along the given axis cumsum and cumprod give the sum or product of all elements up to each position (without it if exclusive, counted from the other end if reverse), and the backward pass gives exactly the derivatives at every input, also where elements are zero, added to the previous gradient when accum is set and replacing it otherwise.", "quantifier": "every shape, axis, combination of exclusive and reverse, input and gradient", "why_tests_cant": "the gradient of the product divides by elements and treats the first zero, later zeros and exclusive mode separately; random test inputs never contain zeros in chosen places", "anchors": ["src/nbla/function/generic/cumsum.cpp", "src/nbla/function/generic/cumprod.cpp"]}
{"id": "C49", "title": "Reductions take each group of elements to its sum, mean, product, greatest or least element", "statement": "Sum, Mean, Prod, Max and Min along any set of axes, given from the front or the end, with or without keeping the reduced axes, have the documented output shape, compute for each output element the sum, mean, product, greatest or least of exactly those input elements that agree with it on the other axes (with the index of the first greatest or least one), and their backward passes give the derivatives, added to the previous gradient when accum is set.", "quantifier": "every number of axes, shape, set of axes, keep_dims, input, output gradient and previous gradient", "why_tests_cant": "the axes are moved to the end by a transposition that is only made when needed, so the axes, their order and their sign interact; the starting values of Max and Min and zeros in Prod lie outside random test data; functions are not set up twice in the tests", "anchors": ["src/nbla/function/generic/sum.cpp", "src/nbla/function/generic/mean.cpp", "src/nbla/function/generic/prod.cpp", "src/nbla/function/generic/max.cpp", "src/nbla/function/generic/min.cpp"]}
{"id": "C50", "title": "Sort orders along the axis and the gradient follows the elements", "statement": "Sort gives along the axis the input elements in ascending (or descending) order, with indices that are a permutation and say where each output element comes from; and the backward pass gives each input element the gradient of the output element that is a copy of it, added to the previous gradient when accum is set.", "quantifier": "every shape, axis (also negative), direction, input and gradient", "why_tests_cant": "the existing test compares the gradient with a reference that repeats the same indexing, and permutations of one or two elements do not tell an index from its inverse", "anchors": ["src/nbla/function/generic/sort.cpp:setup_impl", "src/nbla/function/generic/sort.cpp:forward_impl", "src/nbla/function/generic/sort.cpp:backward_impl"]}
{"id": "C51", "title": "TopKData and TopKGrad select the k best elements of each sample", "statement": "For each sample (the axes from base_axis on) the selected indices are those of the k largest (or smallest, or largest in absolute value) elements, best first; TopKData outputs these elements in order, or in place among zeros; gradients go to selected elements only; TopKGrad passes on only the k largest elements of the gradient; k outside 1..sample size is refused.", "quantifier": "every shape, base axis, k, mode, input and gradient", "why_tests_cant": "selection goes through a heap whose contents depend on all earlier elements; ties and sample borders are rarely hit by random tests", "anchors": ["include/nbla/utils/top_k.hpp:31-101", "src/nbla/function/generic/top_k_data.cpp", "src/nbla/function/generic/top_k_grad.cpp"]}
{"id": "C52", "title": "Convolution is the cross-correlation of the padded image, and its gradients are adjoint", "statement": "Convolution with any number of spatial dimensions, groups, padding, stride and dilation computes for each sample, output channel and position the sum over the channels of its group and the positions of the kernel of weight times padded image element, plus the bias; the output has (n + 2 pad - dilation (k - 1) - 1) / stride + 1 positions per dimension; a kernel that does not fit is refused; the gradients of image and weights are the adjoints of this map, that of the bias sums over samples and positions, each added to the previous gradient when accum is set and computed only when asked for.", "quantifier": "every batch shape, base axis, channels, groups, image, kernel, padding, stride, dilation, input, weights, bias and gradients, and whatever the buffers contain", "why_tests_cant": "three kernels (1-D, 2-D, general) build the patch matrix with different border treatment, and grouping is done by offsets into matrices; tests use a few configurations of 2-D images with one loop nesting", "anchors": ["src/nbla/function/generic/convolution.cpp", "src/nbla/utils/unfold_to_patches.cpp", "src/nbla/utils/fold_from_patches.cpp"]}
{"id": "C53", "title": "Deconvolution is the transposed map of convolution", "statement": "Deconvolution computes, for each output channel and position, the sum of weight times input element over all pairs for which a convolution with the same parameters would read this position, plus the bias; the output has stride (n - 1) + dilation (k - 1) + 1 - 2 pad + output_padding positions and a convolution leads from it back to the shape of the input; inputs that do not match the weights are refused; gradients are the adjoints, added to the previous ones when accum is set.", "quantifier": "every batch shape, base axis, channels, groups, shape, kernel, padding, stride, dilation, output padding, input, weights, bias and gradients", "why_tests_cant": "the same matrices are used with input and output exchanged, so mismatched sizes go unnoticed unless exactly such a shape is tried", "anchors": ["src/nbla/function/generic/deconvolution.cpp"]}
{"id": "C54", "title": "Pooling reduces exactly the covered places", "statement": "MaxPooling, AveragePooling and SumPooling compute for each output position the maximum, the average or the sum of exactly the places of the image that the kernel covers there; the average counts the covered places of the image or of the padded image; the output has floor((n + 2 pad - kernel) / stride) + 1 positions, or floor((n + pad - 1) / stride) + 1 if partial windows are kept; gradients are the adjoints of sums and averages, the gradient of a maximum goes to its first place, and all are added to the previous ones when accum is set; a gradient without a forward pass is refused.", "quantifier": "every batch shape, image of two or three dimensions, kernel, stride, padding, border mode, input and gradient", "why_tests_cant": "two and three dimensions are separate texts with running pointers, clipping at four borders and two different counts; tests use few shapes and rarely padding with partial windows", "anchors": ["src/nbla/function/utils/base_pooling.cpp", "src/nbla/function/generic/max_pooling.cpp", "src/nbla/function/generic/average_pooling.cpp", "src/nbla/function/generic/sum_pooling.cpp"]}
{"id": "C55", "title": "MaxPoolingBackward is the gradient of MaxPooling", "statement": "Whatever the input, MaxPoolingBackward returns what the gradient of MaxPooling returns for the same arguments, and its own gradient for the output gradient is the adjoint of that.", "quantifier": "every batch shape, image of two or three dimensions, kernel, stride, padding, input and gradient", "why_tests_cant": "the window search is written a second time with other index arithmetic; ties between maxima must be broken in the same way", "anchors": ["src/nbla/function/generic/max_pooling_backward.cpp", "src/nbla/function/generic/max_pooling.cpp"]}
{"id": "C56", "title": "Global average pooling and unpooling", "statement": "GlobalAveragePooling returns the mean of each channel over all image positions; Unpooling repeats each element kernel times along each of the last axes; both gradients are the adjoints, added to the previous ones when accum is set.", "quantifier": "every batch and image shape, kernel, input and gradient", "why_tests_cant": "the unpooling recursion keeps counters and offsets per axis with a copying fast path, so an error shows only for some combinations of kernel sizes", "anchors": ["src/nbla/function/generic/global_average_pooling.cpp", "src/nbla/function/generic/unpooling.cpp"]}
{"id": "C57", "title": "Affine is the matrix product with bias", "statement": "Affine flattens the axes from base_axis on and returns, for each element of the batch, the sum over the image of element times weight, plus the bias; it accepts exactly data, weights and bias of matching shapes (negative axes count from the end); the gradients of data and weights are the adjoints, that of the bias sums over the batch, each added to the previous one when accum is set and computed only when it is propagated to.", "quantifier": "every batch, image and output shape, base axis, input, bias and gradient", "why_tests_cant": "shapes, transposes and accumulation are combined in six matrix expressions; tests with square or small shapes do not tell them apart", "anchors": ["src/nbla/function/generic/affine.cpp", "include/nbla/utils/axis_utils.hpp"]}
{"id": "C58", "title": "BatchMatmul multiplies the matching matrices", "statement": "BatchMatmul multiplies, for every index of the leading axes, the matrices of the inputs, each transposed if asked for, where an input of extent 1 on a leading axis is repeated; it accepts exactly inputs of the same number of axes (three or more) with matching leading and inner extents; the gradient of each input is the adjoint, summed over repetitions, added to the previous one when accum is set, and does not depend on uninitialised memory.", "quantifier": "every shape, transpose flags, input and gradient", "why_tests_cant": "sixteen combinations of transposes and broadcasts with separate offsets; gradients of repeated inputs go through temporary variables", "anchors": ["src/nbla/function/generic/batch_matmul.cpp", "src/nbla/function/generic/broadcast.cpp", "include/nbla/utils/eigen.hpp"]}
{"id": "C59", "title": "Where and BoolFill choose by the mask", "statement": "Where takes each element from x_true or x_false as the condition, repeated over the trailing axes, is nonzero or zero, and accepts exactly inputs of equal shape that begins with that of the condition; BoolFill takes the value where the mask, repeated along axes of extent 1 or missing leading axes, is nonzero, and the data elsewhere; gradients go to the elements chosen, zero to the others, added to the previous gradient when accum is set and computed only when propagated to.", "quantifier": "every shape, condition or mask, input and gradient", "why_tests_cant": "repetition happens by an integer division in one function and by a broadcast function kept between setups in the other; tests do not set up a function twice, and use few shapes", "anchors": ["src/nbla/function/generic/where.cpp", "src/nbla/function/generic/bool_fill.cpp"]}
{"id": "C60", "title": "BoolGather and BoolScatter select rows in order", "statement": "BoolGather returns the rows of the data at the places where the mask is set, in order, so many rows as there are such places; BoolScatter puts its rows in order to these places, with zeros (or the third input) elsewhere; the gradient of each is the other selection of the output gradient, zero where nothing was selected, added to the previous gradient when accum is set.", "quantifier": "every shape, mask, number of rows, input and gradient", "why_tests_cant": "the kernels run over the mask with a counter shared by all places, write rows that are overwritten later, and take the number of rows from the sum of the mask; only generic masks are tested", "anchors": ["src/nbla/function/generic/bool_gather.cpp", "src/nbla/function/generic/bool_scatter.cpp", "include/nbla/function/utils/bool_indexing.hpp"]}
{"id": "C61", "title": "OneHot marks exactly the class", "statement": "OneHot returns, for each entry of the labels, an array of the given shape with a one at the class, negative classes counting from the end of their axis, and zeros elsewhere; a class outside the shape gives zeros only; labels are accepted exactly if their last axis has an entry for each axis of the shape.", "quantifier": "every shape with at least one axis, and every array of labels", "why_tests_cant": "the address is accumulated from the last axis to the first and abandoned on an invalid class; tests use valid classes mostly", "anchors": ["src/nbla/function/generic/one_hot.cpp"]}
{"id": "C62", "title": "ScatterAdd adds every entry to its place", "statement": "ScatterAdd returns the data with each entry of the second array, as far as the indices reach, added at the place whose coordinate on the axis is replaced by the index; repeated indices add up, indices outside of the axis are refused; the gradient of the data is that of the output and the gradient of an entry that of its place, zero for entries without an index, added to the previous gradient when accum is set.", "quantifier": "every axis counted from either end, shapes that fit, indices, inputs and gradients", "why_tests_cant": "entries beyond the shape of the indices, repeated indices and accum together are not tested; the axis check is off by one", "anchors": ["src/nbla/function/generic/scatter_add.cpp"]}
{"id": "C63", "title": "ScatterNd brings entries to their places", "statement": "ScatterNd returns an array of the given shape with the slices of the data at the places given by the columns of the indices, negative indices counting from the end: with add they are added up, without it the last one is kept; other elements are zero or those of the third input; indices outside are refused; the gradients are those of this function.", "quantifier": "every shape, indices, data and gradients, with and without add and third input", "why_tests_cant": "repeated places, a third input and add interact in backward, which clears the output gradient while it reads it; tests use distinct places mostly", "anchors": ["src/nbla/function/generic/scatter_nd.cpp"]}
{"id": "C64", "title": "Reading with a key", "statement": "x[key] with a tuple of integers, slices, Ellipsis and None has the shape and the elements NumPy gives: the key is completed with full slices where the Ellipsis is or at the end, integers remove their axis, slices select like Python's, None adds an axis; integers outside, a step of zero, two Ellipses and too many entries are refused.", "quantifier": "every array and every such key", "why_tests_cant": "None entries change the length of the key but not the number of axes used; tests mix them with few other entries", "anchors": ["python/src/nnabla/_indexing.pyx:45-114", "python/src/nnabla/_indexing.pyx:235-253"]}
{"id": "C65", "title": "Writing with a key", "statement": "x[key] = value sets exactly the elements that x[key] reads to those of the value broadcast to its shape, and leaves the others as they are; reading with the same key returns the value.", "quantifier": "every array, key and value", "why_tests_cant": "the written places are recomputed with NumPy and not with the function that reads; new axes and integers change the shape the value is broadcast to", "anchors": ["python/src/nnabla/_indexing.pyx:117-139", "python/src/nnabla/_indexing.pyx:39-42"]}
{"id": "C66", "title": "Keys of integer and boolean arrays", "statement": "With integer arrays or a mask as key the result has the shape and elements NumPy gives, negative indices counting from the end, masks selecting in row-major order, None adding axes; assignment sets these elements to the value broadcast to the shape, the last of several; indices outside their axis are refused.", "quantifier": "every array, key of arrays of integers or masks with None, and value", "why_tests_cant": "masks are turned into indices without a look at the shape of the array, and new axes are put where simple cases need them", "anchors": ["python/src/nnabla/_indexing.pyx:142-232"]}
{"id": "C67", "title": "Broadcast elementwise functions", "statement": "A function of two arrays element by element accepts exactly the shapes of equal length whose extents are equal or one of them 1 (an extent of 1 against 0 excepted), and every element of the output is the operation on the elements of the inputs repeated there, although adjacent axes of one kind are merged and strides used instead.", "quantifier": "every pair of shapes of any rank, every operation, all arrays", "why_tests_cant": "the merging has a case for each pattern of repeated axes", "anchors": ["include/nbla/function/utils/base_transform_binary.hpp:60-284", "src/nbla/function/generic/add2.cpp:27-46"]}
{"id": "C68", "title": "Gradients of broadcast elementwise functions", "statement": "Every element of each input gets the sum, over all places of the output it was repeated at, of the operation's partial gradient there, added to or replacing the previous gradient as asked; for +, -, *, / , maximum and minimum these are the derivatives (a tie gives the gradient to the second input); one variable given as both inputs gets both sums.", "quantifier": "every pair of shapes, every operation, all arrays, accumulation flags", "why_tests_cant": "repeated elements are written from many iterations; the case of one variable twice takes another path", "anchors": ["include/nbla/function/utils/base_transform_binary.hpp:286-398", "include/nbla/function/utils/base_transform_unary.hpp:94-138"]}
{"id": "C69", "title": "Operators on arrays", "statement": "x + y, x - y, x * y, x / y and -x with arrays and numbers in any order compute the operation element by element with numbers repeated everywhere; shapes that do not fit and division by the number 0 are refused; Add2 gives the same whatever shapes it was set up for before; a += b and a -= b, also with b = a, and the four assignments with a number give the same values in place, refusing arrays with more elements.", "quantifier": "every operator, pair of operands, history of setups", "why_tests_cant": "the eight combinations go to different functions with rearranged arguments; in-place calls read the array they write", "anchors": ["python/src/nnabla/_arithmetic_ops.pyx:28-159", "python/src/nnabla/_nd_array.pyx:518-563", "src/nbla/imperative.cpp:22-67", "src/nbla/function/generic/add2.cpp:27-76"]}
{"id": "C70", "title": "Values and gradients of elementwise functions", "statement": "Each function of one number computes the function it is named after also where it is written differently for precision (stable forms of LogSigmoid and SoftPlus, inverse functions on their usual branch, rounding with halves away from zero), and its gradient is the derivative wherever there is one, a number between the one-sided slopes elsewhere; functions with steps pass the gradient of the identity or of the function with its ends cut off.", "quantifier": "every real number in the domain, every parameter, every gradient of the output; 45 functions", "why_tests_cant": "the two expressions of each function are written by hand; gradient checks sample a few points and avoid kinks", "anchors": ["include/nbla/function/utils/base_transform_unary.hpp:152-260", "include/nbla/function/gelu.hpp:43-50", "include/nbla/function/mish.hpp:38-46", "include/nbla/function/softplus.hpp:41-45", "src/nbla/function/generic/relu.cpp:34-66", "src/nbla/function/generic/leaky_relu.cpp:36-84", "src/nbla/function/generic/selu.cpp:34-66"]}
{"id": "C71", "title": "Declared dependencies of gradients", "statement": "A gradient of an elementwise function does not depend on the output, or on the data of an input, when the function declares that it does not (so that these may be freed or overwritten before the backward pass).", "quantifier": "every function, all arguments; LeakyReLU for every slope", "why_tests_cant": "a missing dependency shows only when memory is reused", "anchors": ["include/nbla/function/utils/base_transform_unary.hpp:152-162", "include/nbla/function/utils/base_transform_binary.hpp:415-434", "include/nbla/function/leaky_relu.hpp:72-87"]}
{"id": "C72", "title": "Functions of two numbers and losses", "statement": "Losses and functions of two numbers compute what they are named after (SigmoidCrossEntropy is BinaryCrossEntropy of the sigmoid, ATan2 gives back the angle of a point), and the gradient in each input is the slope in that input.", "quantifier": "every pair of real numbers in the domain, every parameter", "why_tests_cant": "hand-written gradients with case distinctions at the kinks and cut-offs", "anchors": ["include/nbla/function/huber_loss.hpp:51-60", "include/nbla/function/epsilon_insensitive_loss.hpp:58-72", "src/nbla/function/generic/binary_cross_entropy.cpp:39-87", "src/nbla/function/generic/sigmoid_cross_entropy.cpp:42-79", "include/nbla/function/atan2.hpp:47-50"]}
{"id": "C73", "title": "Softmax and LogSoftmax", "statement": "Along the given axis the outputs of Softmax are the exponentials of the inputs divided by their sum, so they are positive, sum to 1 and do not change when a number is added to all inputs; LogSoftmax is the logarithm of that. The largest element is subtracted before exponentials are taken. The backward passes compute the exact gradient from the outputs.", "quantifier": "every shape without empty dimension, every axis (also counted from the end), all real inputs, all output gradients, accumulating or not", "why_tests_cant": "the gradient of a line depends on all its elements through the output; tests use a few shapes and float tolerances", "anchors": ["src/nbla/function/generic/softmax.cpp:30-107", "src/nbla/function/generic/log_softmax.cpp:30-107"]}
{"id": "C74", "title": "Losses of class labels and KL divergence", "statement": "SoftmaxCrossEntropy is minus the logarithm of the softmax at the label, CategoricalCrossEntropy minus the logarithm of the probability at the label, nothing where the label is negative; labels of another shape are refused. KLMultinomial is the sum over each row of x0 (ln x0 - ln x1). Gradients are the derivatives.", "quantifier": "every shape, axis, label, real input and output gradient", "why_tests_cant": "labels index memory and are not looked at by gradient checks; cut-offs and small constants hide differences between value and gradient", "anchors": ["src/nbla/function/generic/softmax_cross_entropy.cpp:35-127", "src/nbla/function/generic/categorical_cross_entropy.cpp:33-130", "src/nbla/function/generic/kl_multinomial.cpp:30-118"]}
{"id": "C75", "title": "Rectifiers with parameters or two outputs", "statement": "PReLU multiplies the negative elements with the slope of their index along the base axis, or with the only slope; CReLU and CELU write max(0, x) and max(0, -x), or elu(x) and elu(-x), in the first and the second half of the axis. Gradients are the derivatives, at kinks between the one-sided slopes, also in the slopes of PReLU.", "quantifier": "every shape, axis, real input, slope and output gradient", "why_tests_cant": "index arithmetic of the halves and of the slopes; gradient checks avoid kinks", "anchors": ["src/nbla/function/generic/prelu.cpp:31-126", "src/nbla/function/generic/crelu.cpp:29-76", "src/nbla/function/generic/celu.cpp:30-79"]}
{"id": "C76", "title": "Batch normalization in training mode", "statement": "The elements of each channel are shifted by their mean, divided by the square root of their variance plus eps, scaled by gamma and shifted by beta (1 and 0 where they are left out), so each channel of the output has mean beta and variance gamma^2 var/(var+eps). Running statistics move towards the mean and the unbiased variance of the batch; recomputing gives the same outputs and leaves the running statistics alone. Setup accepts exactly the right number and shapes of inputs and outputs.", "quantifier": "every shape without empty dimension, axis, eps, decay rate, with or without beta and gamma", "why_tests_cant": "the variance is computed as mean of squares less square of mean, over a strided traversal; batches of one element per channel divide by zero", "anchors": ["src/nbla/function/generic/batch_normalization.cpp:30-133", "src/nbla/function/generic/batch_normalization.cpp:158-225"]}
{"id": "C77", "title": "Gradients of batch normalization in training mode", "statement": "backward computes the derivatives of the outputs with respect to x (through the batch mean and variance, also where these are outputs themselves), beta and gamma, stored or added.", "quantifier": "every shape without empty dimension, axis, eps > 0, real inputs and output gradients", "why_tests_cant": "gradient checks sample few shapes; errors in the terms through mean and variance are of the order of the tolerance for large batches", "anchors": ["src/nbla/function/generic/batch_normalization.cpp:303-378"]}
{"id": "C78", "title": "Batch normalization in testing mode", "statement": "Elements are normalized with the running statistics in place of those of the batch; where they agree, both modes give the same output. backward computes the derivatives with respect to x, beta and gamma through the chain of broadcasting functions the code builds.", "quantifier": "every shape without empty dimension, axis, running variance above -eps", "why_tests_cant": "this backward path is composed of other functions with intermediate arrays and accumulation flags that tests exercise for few combinations", "anchors": ["src/nbla/function/generic/batch_normalization.cpp:227-262", "src/nbla/function/generic/batch_normalization.cpp:406-487"]}
{"id": "C79", "title": "Update rules of descent and adaptive rates", "statement": "For any history of gradients and learning rates, from zero states, each element of the parameter equals the closed form of its solver: sums of scaled gradients (Sgd), of discounted velocities (Momentum, Nesterov ahead by the momentum, SgdW with separate decay), signs of averages (Lion), gradients over roots of sums or averages of squares (Adagrad, RMSprop, Adadelta, RMSprop by Graves). Steps of Adagrad and RMSprop are bounded by the rate, the variance of Graves is never negative, no update leaves its arrays, the counter does not overflow.", "quantifier": "every history of less than 2^32 - 2 updates, every size, element and schedule of rates", "why_tests_cant": "tests compare few updates with a reference written in the same recursive way; they cannot show closed forms or bounds over all histories", "anchors": ["src/nbla/solver/generic/sgd.cpp:38-49", "src/nbla/solver/generic/momentum.cpp:44-57", "src/nbla/solver/generic/nesterov.cpp:44-59", "src/nbla/solver/generic/sgdw.cpp:47-62", "src/nbla/solver/generic/lion.cpp:47-65", "src/nbla/solver/generic/adagrad.cpp:44-58", "src/nbla/solver/generic/rmsprop.cpp:45-59", "src/nbla/solver/generic/adadelta.cpp:48-68", "src/nbla/solver/generic/rmsprop_graves.cpp:52-73"]}
{"id": "C80", "title": "Update rules of the family of Adam", "statement": "For any history of gradients, the steps of Adam, AdamW, Adamax, AMSGrad, AdaBound, AMSBound and AdaBelief are the corrected averages of the gradients over the root of corrected averages of squares, over the largest discounted magnitude, or over the largest average so far, which never shrinks; rates of AdaBound lie between bounds that close on the final rate; rectified rates never exceed alpha.", "quantifier": "every history of less than 2^32 - 2 updates, every size, decay rates in [0, 1), epsilon positive", "why_tests_cant": "tests run few updates for few settings; a wrong bias correction or bound shows only late or for other settings", "anchors": ["src/nbla/solver/generic/adam.cpp:49-71", "src/nbla/solver/generic/adamw.cpp:51-75", "src/nbla/solver/generic/adamax.cpp:49-70", "src/nbla/solver/generic/amsgrad.cpp:53-78", "src/nbla/solver/generic/adabound.cpp:50-77", "src/nbla/solver/generic/amsbound.cpp:56-86", "src/nbla/solver/generic/adabelief.cpp:59-122"]}
{"id": "C81", "title": "Rates per layer and functions on gradients", "statement": "LARS and Lamb scale steps by the norms of weights and gradients as documented: without momentum a step of LARS is at most lr coef times the norm of the weights, a step of Lamb is exactly eta times the clipped norm. Clipping gives gradients of at most the given norm in the same direction and keeps small ones; weight decay adds and scaling multiplies; decay of gradients and SgdW agree without momentum.", "quantifier": "every size, weights, gradients, states and settings", "why_tests_cant": "norms are compared with a reference on random data, where boundaries (zero weights, small norms, limit zero) do not occur", "anchors": ["src/nbla/solver/generic/lars.cpp:50-80", "src/nbla/solver/generic/lamb.cpp:58-109", "include/nbla/solver/clip_grad.hpp:25-41", "include/nbla/solver/weight_decay.hpp:20-28", "include/nbla/solver/mixed_precision_training.hpp:57-65", "src/nbla/solver.cpp:257-273"]}
{"id": "C82", "title": "Python gradients agree with C++ gradients", "statement": "For every function of one or two inputs that computes element by element, the gradient graph that nnabla.grad builds with the Python backward function evaluates to the same number as the C++ backward function, for every gradient of the output, outside the listed critical arguments.", "quantifier": "every unary function but Mish, every binary function but BcAdd2, every argument, parameter and gradient of the output", "why_tests_cant": "tests compare on random data, where critical arguments (0 of ELU, ends of HardSigmoid, equal arguments) and computed labels do not occur", "anchors": ["python/src/nnabla/grad.py:67-125", "python/src/nnabla/backward_function/elu.py:39-46", "python/src/nnabla/backward_function/hard_sigmoid.py:39-46", "python/src/nnabla/backward_function/absolute_error.py:39-49", "python/src/nnabla/backward_function/binary_cross_entropy.py:34-38"]}
{"id": "C83", "title": "Gradients of gradients are partial derivatives", "statement": "Applying nnabla.grad again and again, by any inputs in any order, to a graph of such functions gives a graph whose value is the mixed partial derivative of the value of the first graph, and all functions of that graph have finite values, as long as no function is at an argument where its gradient graph of that order breaks down. The gradients exist for every supported graph and every order.", "quantifier": "every graph (tree) of supported functions, every list of inputs, every environment that is regular for the order", "why_tests_cant": "tests check second gradients on random data against finite differences; orders above two and special arguments such as 0 are not tested", "anchors": ["python/src/nnabla/grad.py:25-320", "python/src/nnabla/backward_function/tanh.py:34-38", "python/src/nnabla/backward_function/pow_scalar.py:35-38", "python/src/nnabla/backward_function/sinc.py:39-48", "python/src/nnabla/backward_function/sigmoid_cross_entropy.py:37-42", "python/src/nnabla/backward_function/utils.py:20-21"]}
{"id": "C84", "title": "Python gradients of array functions agree with C++", "statement": "The gradient that nnabla.grad builds from Python functions for Add2, Sub2, Mul2, Div2, Maximum2, Minimum2, Broadcast, Sum, Mean, Prod, Max and Min has the shape of the input and the same elements as the C++ backward pass of the function, for broadcast inputs, for every choice of axes and with or without kept axes.", "quantifier": "every pair of compatible shapes, every shape, choice of axes and data", "why_tests_cant": "tests of second gradients use a few shapes, mostly with axes counted from the front, no equal elements and no broadcast in Maximum2 and Minimum2", "anchors": ["python/src/nnabla/backward_function/utils.py:67-80", "python/src/nnabla/backward_function/add2.py:20-44", "python/src/nnabla/backward_function/sub2.py:20-44", "python/src/nnabla/backward_function/mul2.py:21-45", "python/src/nnabla/backward_function/div2.py:21-45", "python/src/nnabla/backward_function/maximum2.py:22-48", "python/src/nnabla/backward_function/minimum2.py:22-48", "python/src/nnabla/backward_function/broadcast.py:20-42", "python/src/nnabla/backward_function/sum.py:22-33", "python/src/nnabla/backward_function/mean.py:23-34", "python/src/nnabla/backward_function/prod.py:22-48", "python/src/nnabla/backward_function/max.py:22-61", "python/src/nnabla/backward_function/min.py:22-61"]}
{"id": "C85", "title": "Moving arrays between host and device keeps within memory and in time", "statement": "If every array has one type, a schedule made by SwapInOutScheduler never ends in one of the checks for bugs of the scheduler; when it is carried out, the arrays on the device never take more than max_bytes, at any point between moves and accesses; and every array whose content a function needs is on the device when the function accesses it.", "quantifier": "every recorded order of gets, casts and clears, every division into functions, every memory size, prefetch size, cast_prefetch and content before the iteration", "why_tests_cant": "schedules depend on the whole order, sizes and memory; tests run a few networks and compare results, not the memory in use at each point", "anchors": ["src/nbla/lms/swap_in_out_scheduler.cpp:120-320", "src/nbla/lms/swap_in_out_scheduler.cpp:356-839", "include/nbla/lms/swap_in_out_scheduler.hpp:100-280"]}
{"id": "C86", "title": "A schedule is found if the arrays of every function fit", "statement": "Making a schedule ends after at most records times functions attempts; if every array has one type, the arrays used before and by the first function fit together, and those of every other function fit, then a schedule is found.", "quantifier": "every recorded order, every division into functions, every memory and prefetch size", "why_tests_cant": "backtracking happens only with orders and sizes that leave too little memory for arrays that are made without transfer", "anchors": ["src/nbla/lms/swap_in_out_scheduler.cpp:198-316", "src/nbla/lms/swap_in_out_scheduler.cpp:356-468", "src/nbla/lms/swap_in_out_scheduler.cpp:587-722"]}
{"id": "C87", "title": "Arrays are cleared in advance only if nothing reads them before the clear", "statement": "An array is cleared in advance at the end of a function only if the next record of it, after its last access in that function, is a clear in a later function.", "quantifier": "every recorded order with any types, every division into functions, every memory size", "why_tests_cant": "a wrong early clear shows only if the array is read again before it is written, in some order of functions", "anchors": ["src/nbla/lms/swap_in_out_scheduler.cpp:724-800", "src/nbla/lms/swap_in_out_scheduler.cpp:841-872"]}
{"id": "C88", "title": "SearchSorted finds the place of insertion", "statement": "For every value, SearchSorted gives the number of elements of the sorted sequence in the same row that are less than the value (or, with right, not greater), which is the one place where the value can be inserted before (behind) equal elements; for a sequence that is not sorted it gives some place of the sequence and reads nothing outside the row.", "quantifier": "every shape, every sorted sequence, every value, both sides", "why_tests_cant": "a binary search that checks both ends first goes wrong only for particular lengths and ties", "anchors": ["src/nbla/function/generic/searchsorted.cpp:25-99"]}
{"id": "C89", "title": "Unique finds the distinct elements", "statement": "Unique gives the distinct elements, or the distinct slices along an axis in lexicographic order, sorted or in order of their first occurrence; the indices are those of first occurrences, the inverse indices give back the input, and the counts are the numbers of occurrences.", "quantifier": "every array with at least one element, every axis, sorted or not, every correct std::sort and stable std::stable_sort", "why_tests_cant": "ties, equal prefixes of slices and the order of first occurrence have to be met together", "anchors": ["src/nbla/function/generic/unique.cpp:27-262"]}
{"id": "C90", "title": "NonZero lists the elements that are not zero", "statement": "The columns of the output of NonZero are the indices of the elements that are not zero, in row-major order, of the input of the forward pass.", "quantifier": "every shape and every array", "why_tests_cant": "with auto-forward every output is computed when the graph is made, so tests that use it do not see a forward pass with other data", "anchors": ["src/nbla/function/generic/nonzero.cpp:28-68"]}
{"id": "C91", "title": "Errors of classification are counted right", "statement": "TopNError is 0 just if the label is within the first N places however classes of the same score are ranked; ConfusionMatrix counts the samples of each class and predicted class, the first of the highest score; BinaryError is 0 just if both elements are on the same side of one half; labels of a shape that does not fit are refused.", "quantifier": "every shape, axis, score and label", "why_tests_cant": "ties between scores are rare in tests with random scores", "anchors": ["src/nbla/function/generic/top_n_error.cpp:27-82", "src/nbla/function/generic/confusion_matrix.cpp:30-91", "src/nbla/function/generic/binary_error.cpp:27-51"]}
{"id": "C92", "title": "The overlap of boxes is intersection over union", "statement": "The overlap that non-maximum suppression computes for two boxes, given by center and size or by any two opposite corners, is the area of their intersection over that of their union, and 0 if they share no more than a line; it is from 0 to 1, the same for both orders, and 1 just for equal boxes.", "quantifier": "every pair of boxes, also empty ones and ones of negative size", "why_tests_cant": "negative and empty sizes and boxes that only touch do not occur among detections in tests", "anchors": ["src/nbla/function/generic/nms_detection2d.cpp:42-71", "src/nbla/function/generic/onnx_non_max_suppression.cpp:23-83"]}
{"id": "C93", "title": "NmsDetection2d selects per class", "statement": "With nms_per_class, boxes are copied, and for each image and class the score of a box is kept just if it is not under the threshold and the box overlaps no box of the same class kept before it in an order of falling scores; without equal scores the result does not depend on std::sort.", "quantifier": "every number of images, boxes and classes, every threshold, every correct std::sort", "why_tests_cant": "chains of overlapping boxes and equal scores have to be made up for a test", "anchors": ["src/nbla/function/generic/nms_detection2d.cpp:73-157", "build-tools/code_generator/functions.yaml:7834-7868"]}
{"id": "C94", "title": "NmsDetection2d drops boxes by objectness", "statement": "Without nms_per_class, a box is dropped, with its objectness and all its scores, if it overlaps a box of higher objectness, and kept if no box of the same or higher objectness overlaps it.", "quantifier": "every number of images, boxes and classes, every threshold, every correct std::sort", "why_tests_cant": "whether dropped boxes still suppress others shows only for chains of overlapping boxes", "anchors": ["src/nbla/function/generic/nms_detection2d.cpp:159-224", "build-tools/code_generator/functions.yaml:7834-7868"]}
{"id": "C95", "title": "ONNXNonMaxSuppression selects boxes up to a limit", "statement": "The rows of the output are, for each image and class in order, the first boxes kept in an order of falling scores, at most as many as asked for, where a box is kept just if its score is not under the threshold and it overlaps none kept before; inputs that do not fit are refused; and the selection is that of the inputs of the forward pass.", "quantifier": "every number of images, boxes and classes, both formats of boxes, every limit and threshold, every correct std::sort", "why_tests_cant": "with auto-forward every output is computed when the graph is made, so tests that use it do not see a forward pass with other data", "anchors": ["src/nbla/function/generic/onnx_non_max_suppression.cpp:85-241"]}
{"id": "C96", "title": "FixedPointQuantize gives the nearest multiple of the step", "statement": "Each output is the multiple of the step nearest to the input among those in the range of n-bit numbers, halves away from 0; quantized numbers stay the same; a step that is not positive or no bit for the size is refused; the gradient is passed on, with fine_grained only for inputs in the range.", "quantifier": "every sign setting, number of bits, positive step and input", "why_tests_cant": "tests use 8 bits and compare with a NumPy copy of the formula; an overflow of the cast to int only shows from 32 bits on", "anchors": ["src/nbla/function/generic/fixed_point_quantize.cpp:22-113"]}
{"id": "C97", "title": "Pow2Quantize gives the nearest power of two", "statement": "Each output is the power of two nearest by factor to the size of the input within the range of n-bit exponents, or 0 for small inputs with with_zero, with the sign of the input; unsigned numbers below 0 become the least value; the gradient is passed on, with fine_grained not for inputs rounded above the range nor unsigned inputs below 0; and unsigned numbers are rounded as documented.", "quantifier": "every setting, number of bits and input", "why_tests_cant": "tests use the same formula as the code; the documented formula for unsigned numbers differs from both", "anchors": ["src/nbla/function/generic/pow2_quantize.cpp:24-147", "build-tools/code_generator/functions.yaml:7399-7450"]}
{"id": "C98", "title": "QuantizeLinear and DequantizeLinear", "statement": "QuantizeLinear gives round(x / scale) + zero_point brought into the range of the type, with either rounding mode; DequantizeLinear gives (x - zero_point) * scale; one after the other gives x up to half the scale unless at an end of the range; shapes that do not fit are refused; gradients are dy / scale and dy * scale; inputs are not changed; and every type accepted works.", "quantifier": "every shape, scales and zero points that widen to it, both types, both ranges and rounding modes", "why_tests_cant": "tests give zero points that are integers in the range, which hides that the input is changed in place", "anchors": ["src/nbla/function/generic/quantize_linear.cpp:30-157", "src/nbla/function/generic/dequantize_linear.cpp:29-107"]}
{"id": "C99", "title": "MinMaxQuantize quantizes to levels that contain 0", "statement": "The limits of the range are the given ones, those of x, or moving averages, with the upper limit kept apart from the lower by eps; each output is the number of the nearest level of the range nudged so that a level stands for 0; 0 is kept; gradients of inputs outside of the range go to its limits; qr_max changes only if x_min_max; and the outputs are in the documented range.", "quantifier": "every shape and widened shape of limits, every setting, integer levels, every input", "why_tests_cant": "tests use symmetric data where zero points fall on levels; the documented formula of the nudged range is not tested", "anchors": ["src/nbla/function/generic/min_max_quantize.cpp:43-330", "build-tools/code_generator/functions.yaml:7270-7330"]}
{"id": "C100", "title": "Prune makes a share of the elements 0", "statement": "Elements whose size is under that of the element at the place rate * (number - 1) in order of size become 0 and others stay; with rate 1 all become 0; gradients are passed on; empty arrays stay empty; and the threshold is the documented one.", "quantifier": "every input and rate from 0 to 1, every correct std::sort", "why_tests_cant": "tests use random arrays without ties and no empty arrays", "anchors": ["src/nbla/function/generic/prune.cpp:22-89", "build-tools/code_generator/functions.yaml:7527-7556"]}
{"id": "C101", "title": "Tile repeats an array along its axes", "statement": "The output has, along each axis, as many copies of the input as given, where ones are put in front of the shorter one of shape and repetitions; the gradient of an element is the sum over its copies; repetitions below 1 are refused; empty arrays and scalars are repeated too.", "quantifier": "every shape, repetitions and input with an output under 2^31 elements", "why_tests_cant": "tests compare a few shapes with NumPy and have neither empty arrays nor scalars without repetitions", "anchors": ["src/nbla/function/generic/tile.cpp:28-115", "include/nbla/utils/nd_index.hpp:188-215"]}
{"id": "C102", "title": "Trilu keeps one side of a diagonal, EyeLike makes a diagonal", "statement": "Of each matrix of a batch, Trilu keeps the entries on or above (or below) diagonal k and makes the others 0, and its gradient does the same; EyeLike is 1 exactly on diagonal k of a matrix; inputs with other shapes are refused, and empty ones work.", "quantifier": "every batch, matrix size, diagonal and input", "why_tests_cant": "tests use a few sizes with more than one row and column and none with one axis or without elements", "anchors": ["src/nbla/function/generic/trilu.cpp:10-71", "src/nbla/function/generic/eye_like.cpp:25-51"]}
{"id": "C103", "title": "Meshgrid spreads vectors over a grid", "statement": "Output i holds at each place of the grid the element of input i for the coordinate of its axis, with the first two axes swapped for Cartesian indexing; the gradient of an element is the sum over the places with its coordinate, for every input that wants it; inputs with another number of axes than one are refused.", "quantifier": "every number of inputs up to 8, every lengths, both settings, every combination of wanted gradients", "why_tests_cant": "tests want the gradients of all inputs; the early return looks at the first two only", "anchors": ["src/nbla/function/generic/meshgrid.cpp:27-121"]}
{"id": "C104", "title": "Linspace and Arange give evenly spaced numbers", "statement": "Linspace gives num numbers from start to stop, both included, with equal steps; Arange gives start + i * step for all i for which that comes before stop, and always ends; a step of 0 and a negative number are refused.", "quantifier": "every start, stop, step and number", "why_tests_cant": "tests use small ranges, where a float sum does not get stuck, and few steps that are not exact", "anchors": ["src/nbla/function/generic/linspace.cpp:26-43", "src/nbla/function/generic/arange.cpp:27-56"]}
{"id": "C105", "title": "Shape slices a shape, BitShift shifts unsigned numbers", "statement": "Shape gives the slice of the shape from start to end, like a slice in Python with end 0 for none; BitShift gives x * 2^shift modulo the range of the type or floor(x / 2^shift), with broadcast; other types and directions are refused.", "quantifier": "every shape, start and end; every unsigned type, direction and shapes that broadcast", "why_tests_cant": "tests use slices that are not empty and shifts under the number of bits", "anchors": ["src/nbla/function/generic/shape.cpp:27-66", "src/nbla/function/generic/bit_shift.cpp:24-127"]}
{"id": "C106", "title": "Converting a graph with IdentityModifier gives a network that computes the same", "statement": "IdentityModifier makes new functions for everything below the outputs, leaves the old graph as it is, and the new outputs compute what the old ones do; with a dictionary they compute what the old ones would with the inputs replaced.", "quantifier": "every graph of functions of any kind, any number of outputs and any sharing of variables", "why_tests_cant": "tests convert a few networks and never use only the second output of a function", "anchors": ["python/src/nnabla/experimental/graph_converters/graph_converter.py:60-143", "python/src/nnabla/experimental/graph_converters/graph_converter.py:195-229", "python/src/nnabla/experimental/graph_converters/identity.py:45-74"]}
{"id": "C107", "title": "Converters take functions out, switch batch statistics off and take parameters away", "statement": "RemoveFunctionModifier gives the network in which functions of the given types pass their first input; BatchNormBatchStatModifier the one in which batch normalizations use the running statistics; NoGradModifier one that computes the same.", "quantifier": "every graph and every list of types", "why_tests_cant": "tests compare a few networks whose functions have one output", "anchors": ["python/src/nnabla/experimental/graph_converters/remove_function.py:40-63", "python/src/nnabla/experimental/graph_converters/batch_norm_batchstat.py:40-67", "python/src/nnabla/experimental/graph_converters/no_grad.py:45-61"]}
{"id": "C108", "title": "Folding batch normalizations keeps what a network computes", "statement": "BatchNormalizationFoldingModifierInner replaces every inner product that is followed by a batch normalization by one with folded parameters, and takes the batch normalization out; the outputs compute the same.", "quantifier": "every graph of inner products, batch normalizations and other functions", "why_tests_cant": "tests use chains in which each convolution has its own weight and its own batch normalization", "anchors": ["python/src/nnabla/experimental/graph_converters/batch_normalization_folding.py:92-151", "python/src/nnabla/experimental/graph_converters/graph_converter.py:37-53"]}
{"id": "C109", "title": "Batch normalizations become scales and shifts, and inner products get biases", "statement": "BatchNormalizationSelfFoldingModifier replaces every batch normalization by c0 * x + c1, and AddBiasModifier gives inner products next to batch normalizations a bias of zeros; the outputs compute the same.", "quantifier": "every graph", "why_tests_cant": "tests convert one network in a fresh parameter scope", "anchors": ["python/src/nnabla/experimental/graph_converters/batch_normalization_self_folding.py:43-90", "python/src/nnabla/experimental/graph_converters/batch_normalization_folding.py:40-89"]}
{"id": "C110", "title": "Folding a batch normalization into the convolution before it keeps the values", "statement": "The weights and bias that BatchNormalizationFoldingModifier computes for a Convolution or Deconvolution make it compute what the layer and the following batch normalization computed, for every image.", "quantifier": "every layer with a batch normalization of fixed statistics after it", "why_tests_cant": "tests fold networks with initial statistics (mean 0, variance 1), one batch axis and several output channels", "anchors": ["python/src/nnabla/experimental/graph_converters/batch_normalization_folding.py:56-89", "python/src/nnabla/experimental/graph_converters/batch_normalization_folding.py:136-198"]}
{"id": "C111", "title": "Folding a batch normalization into the affine layer before it keeps the values", "statement": "The weights and bias that BatchNormalizationFoldingModifier computes for an Affine make it compute what the layer and the following batch normalization computed.", "quantifier": "every affine layer with one axis of outputs", "why_tests_cant": "no test folds into an affine layer; with equal scales the mistake is invisible", "anchors": ["python/src/nnabla/experimental/graph_converters/batch_normalization_folding.py:153-198"]}
{"id": "C112", "title": "Folding a batch normalization into the layer after it keeps the values", "statement": "The weights and bias that the opposite folding computes make the layer compute on the image what it computed on the normalized image.", "quantifier": "every layer with a batch normalization of fixed statistics before it", "why_tests_cant": "tests use initial statistics, for which scale is 1 and shift is 0", "anchors": ["python/src/nnabla/experimental/graph_converters/batch_normalization_folding.py:238-325"]}
{"id": "C113", "title": "Self folding keeps the values", "statement": "The arrays c0 and c1 of BatchNormalizationSelfFoldingModifier have the shape of the parameters, and c0 * x + c1 is the batch normalization of x.", "quantifier": "all shapes with one normalized axis, all statistics", "why_tests_cant": "tests compare one network up to a tolerance", "anchors": ["python/src/nnabla/experimental/graph_converters/batch_normalization_self_folding.py:59-86"]}
{"id": "C114", "title": "Linear interpolation weighs the pixels around the documented coordinate", "statement": "Interpolate with mode linear writes at every place of the output the sum over all input pixels of the product over the axes of max(0, 1 - |c - i|) times the pixel, where c is the documented coordinate (align_corners, half_pixel or neither) moved into the range of the pixels. So results lie between the smallest and greatest pixel, constant images stay constant, corners keep their values with align_corners, and an unchanged size changes nothing.", "quantifier": "all shapes with 1 to 3 interpolated axes that are not empty, all sizes, flags and elements", "why_tests_cant": "tests compare a few sizes with another implementation of the same formulas", "anchors": ["src/nbla/function/generic/interpolate.cpp:24-132", "src/nbla/function/generic/interpolate.cpp:359-470", "python/src/nnabla/functions.py:769-886"]}
{"id": "C115", "title": "Nearest interpolation takes the nearest pixel", "statement": "Interpolate with mode nearest copies to every place of the output the input pixel nearest to the documented coordinate of that place.", "quantifier": "all shapes with 1 to 3 interpolated axes that are not empty, all sizes, flags and elements", "why_tests_cant": "tests repeat the formula of the code in the reference implementation", "anchors": ["src/nbla/function/generic/interpolate.cpp:31-46", "src/nbla/function/generic/interpolate.cpp:224-275", "python/src/nnabla/functions.py:807-813"]}
{"id": "C116", "title": "The gradient of Interpolate is the transpose of its forward pass", "statement": "For both modes, the inner product of the gradient of the input with any array u is that of the gradient of the output with the forward pass of u, plus that of the previous gradient if accum; no access is outside an array.", "quantifier": "all shapes with 1 to 3 interpolated axes that are not empty, all flags, gradients and previous gradients", "why_tests_cant": "numeric differentiation with tolerance on a few shapes", "anchors": ["src/nbla/function/generic/interpolate.cpp:134-222", "src/nbla/function/generic/interpolate.cpp:277-332", "src/nbla/function/generic/interpolate.cpp:472-600", "src/nbla/function.cpp:155-175"]}
{"id": "C117", "title": "Interpolate accepts what it can compute, with the documented sizes", "statement": "setup_impl accepts exactly 1 to 3 output sizes, a known mode, not both flags, and enough axes; it replaces the sizes of the last axes (before the channels if channel_last). With scale, F.interpolate uses the size floor(scale * size) for each axis. What setup accepts can be computed.", "quantifier": "all shapes and arguments", "why_tests_cant": "tests use valid arguments", "anchors": ["src/nbla/function/generic/interpolate.cpp:334-365", "python/src/nnabla/functions.py:876-886"]}
{"id": "C118", "title": "Random choice with replacement follows the weights", "statement": "Every sample of RandomChoice with replacement uses one number of the generator; it is the element of its population into whose share of the line the number falls, so an element is chosen by a set of numbers whose size is its weight divided by the sum of the weights, and elements of weight 0 are never chosen. The samples exist exactly if no weight is negative and each population has a weight above 0.", "quantifier": "all populations, weights, numbers of samples and generators", "why_tests_cant": "tests compare histograms of many samples with a tolerance", "anchors": ["src/nbla/function/generic/random_choice.cpp:67-104", "build-tools/code_generator/functions.yaml:5930-5968"]}
{"id": "C119", "title": "Random choice without replacement draws every element at most once and ends", "statement": "Without replacement the samples of a population are at different places whose weights are above 0, each picked by a number in proportion to the weights left at some moment before, and the first by the first number. It ends after at most 1 + 2 + ... + n numbers for n samples if the documented conditions hold, and otherwise it is an error.", "quantifier": "all populations, weights, numbers of samples and generators", "why_tests_cant": "tests run a few seeds; a loop that does not end needs special weights", "anchors": ["src/nbla/function/generic/random_choice.cpp:105-138", "build-tools/code_generator/functions.yaml:5962-5968"]}
{"id": "C120", "title": "Random choice: gradient, recomputation and shapes", "statement": "The gradient of the population is the transpose of taking the samples (added to the previous gradient if accum); the weights get the same. Recomputation gives the samples of forward again without moving any generator. A function with a seed does not use the global generator, and the other way round. The output shape is that of the input with the last axis replaced by the shape of the samples, and more samples than elements are refused without replacement.", "quantifier": "all shapes, arguments, generators, gradients and previous gradients", "why_tests_cant": "tests use a few shapes and seeds", "anchors": ["src/nbla/function/generic/random_choice.cpp:28-65", "src/nbla/function/generic/random_choice.cpp:140-201"]}
{"id": "C121", "title": "Patch correlation: values", "statement": "Each output element is the sum over the patch and the channels of the products of the first image at the position and the second image at the position moved by the shift, both with zeros around them. Positions start at minus the padding and go in patch steps, shifts go from minus to plus the maximum in shift steps. Forward reads and writes only inside its arrays and does not depend on the previous contents of the output.", "quantifier": "all image sizes, patches, shifts, steps, paddings and elements", "why_tests_cant": "tests compare a few sizes with a NumPy program", "anchors": ["src/nbla/function/generic/patch_correlation.cpp:98-149", "python/src/nnabla/functions.py:1489-1560"]}
{"id": "C122", "title": "Patch correlation: gradients", "statement": "The gradient of each of the two images is the transpose of the forward map, which is linear in that image, applied to the gradient of the output. It is added to the previous gradient if accum is set, and an image without propagate_down keeps its gradient.", "quantifier": "all arguments, images, gradients, previous gradients and flags", "why_tests_cant": "tests compare with numerical differences at a few points", "anchors": ["src/nbla/function/generic/patch_correlation.cpp:151-219"]}
{"id": "C123", "title": "Patch correlation: arguments and shapes", "statement": "Setup accepts two images of one four-dimensional shape with proper arguments and nothing else. If the patch fits into the padded image, the output's spatial sizes are the numbers of its positions and the channel sizes the numbers of shifts. F.patch_correlation expands integers and pairs as documented, and with channels first gives the same values at moved axes. A patch that does not fit should be refused.", "quantifier": "all shapes and arguments", "why_tests_cant": "tests use patches that fit", "anchors": ["src/nbla/function/generic/patch_correlation.cpp:52-96", "python/src/nnabla/functions.py:1609-1644"]}
{"id": "C124", "title": "Warping by a grid: values", "statement": "For images, each output element is the image at the place its two grid numbers mean: -1 to 1 is the range of the pixel centers with align_corners, else of the outer edges. With linear interpolation every pixel counts 1 minus its distance along each axis, not below 0; with nearest it is the pixel the place rounds to. Outside the image there are zeros, or the place is moved to the nearest pixel, or it is reflected at the outer pixel centers or edges until it is inside. Channels last is refused.", "quantifier": "all sizes, images, grids, borders and both kinds of alignment and interpolation", "why_tests_cant": "tests use small grids near the image, so that places are reflected at most a few times", "anchors": ["src/nbla/function/generic/warp_by_grid.cpp:26-93", "src/nbla/function/generic/warp_by_grid.cpp:148-157", "src/nbla/function/generic/warp_by_grid.cpp:197-260", "src/nbla/function/generic/warp_by_grid.cpp:351-399"]}
{"id": "C125", "title": "Warping by a grid: gradient of the image", "statement": "The gradient of the image is the transpose of the forward map, which is linear in the image, applied to the gradient of the output, and is added to the previous gradient if accum is set.", "quantifier": "all sizes, grids, borders, gradients and flags, for both kinds of interpolation", "why_tests_cant": "tests compare with numerical differences at a few points", "anchors": ["src/nbla/function/generic/warp_by_grid.cpp:172-180", "src/nbla/function/generic/warp_by_grid.cpp:464-575", "src/nbla/function.cpp:158-170"]}
{"id": "C126", "title": "Affine grids", "statement": "The affine grid of an image size maps, with the matrix of its batch element, the numbers that mean each pixel's place. Warping an image by the affine grid of the identity gives back the image, for every border, alignment and interpolation. This should hold for every size.", "quantifier": "all sizes, matrices and images", "why_tests_cant": "tests use sizes from three on and compare with a formula of the same form", "anchors": ["src/nbla/function/generic/affine_grid.cpp:24-47", "src/nbla/function/generic/affine_grid.cpp:75-125"]}
{"id": "C127", "title": "Warping by a grid: gradient of the grid", "statement": "For images and linear interpolation, the gradient of the grid tells how the output changes with the grid: if the numbers for one axis change without leaving the cell between two pixels or a piece of the border, the change of the output, weighed by its gradient, is the change of the grid weighed by the gradient of the grid, summed over the channels. It is added to the previous gradient if accum is set. Channels last and the mode nearest are refused.", "quantifier": "all sizes, images, grids, borders, alignments, gradients and flags", "why_tests_cant": "tests compare with numerical differences at a few points near the image", "anchors": ["src/nbla/function/generic/warp_by_grid.cpp:93-147", "src/nbla/function/generic/warp_by_grid.cpp:721-808", "src/nbla/function/generic/warp_by_grid.cpp:1230-1270"]}
{"id": "C128", "title": "Monitor of a series", "statement": "The lines that MonitorSeries writes are for consecutive groups of the added values, each with the last index of its group and the mean of all its values: a group ends with the first index that is at least the interval beyond the last written index. Values after the last group wait. With indices from 0 on each line is the mean of exactly interval values. Every value should be written in the end, also when indices start again.", "quantifier": "all intervals and sequences of indices and values", "why_tests_cant": "tests add a few values with growing indices", "anchors": ["python/src/nnabla/monitor.py:64-97"]}
{"id": "C129", "title": "Monitors of times and images", "statement": "MonitorTimeElapsed writes a line at the end of each group of calls, cut as for series, with the time since the start; the laps of all lines so far add up to this time, and their numbers of iterations to the index plus one. Images are written at index 0 and at the last index of every interval.", "quantifier": "all intervals and sequences of indices and times", "why_tests_cant": "tests do not look at the written times", "anchors": ["python/src/nnabla/monitor.py:125-163", "python/src/nnabla/monitor.py:231-232", "python/src/nnabla/monitor.py:310-311"]}
{"id": "C130", "title": "Dropout: values", "statement": "Dropout with p from 0 to below 1 (anything else is an error) takes one number u for each element, from its own generator if it has a seed and from the global one otherwise; the element is multiplied by 1 / (1 - p) if u < 1 - p and by 0 otherwise, so its expected value stays. With a seed the values after setup depend only on p, seed and input. Recomputation gives the same values and the same mask whatever was drawn in between, and takes no numbers.", "quantifier": "all p, seeds, inputs, generators and states", "why_tests_cant": "tests compare a few seeds with a threshold on the share of zeros", "anchors": ["src/nbla/function/generic/dropout.cpp:30-90", "include/nbla/function/dropout.hpp:33-63"]}
{"id": "C131", "title": "Dropout: gradients and masks", "statement": "Backward multiplies gradients by the same factors as forward the values and adds them to or puts them in place of what was there. The derivative as a graph (nnabla.grad) uses the mask of its function and computes the same.", "quantifier": "all p, inputs, gradients and states", "why_tests_cant": "tests have one Dropout per variable and one backward per forward", "anchors": ["src/nbla/function/generic/dropout.cpp:92-117", "src/nbla/function/utils/dropout_workaround.cpp:19-27", "python/src/nnabla/backward_function/dropout.py:23-56"]}
{"id": "C132", "title": "Sums and products of many inputs: values", "statement": "AddN and MulN compute the sum and the product, element for element, of the inputs that are active. If no input is active the sum is 0 and the product 1.", "quantifier": "all numbers of inputs, sizes, elements and masks of active inputs", "why_tests_cant": "tests have a few masks and never an empty one", "anchors": ["src/nbla/function/generic/add_n.cpp:41-66", "src/nbla/function/generic/mul_n.cpp:41-66"]}
{"id": "C133", "title": "Sums and products of many inputs: gradients", "statement": "The gradient for an active input is the gradient of the output for AddN, and this times the product of the other active inputs for MulN; it is added to or put in place of what was there. The gradient for an inactive input is 0.", "quantifier": "all inputs, elements, masks and gradients", "why_tests_cant": "tests draw elements that are never 0, and start with gradients of 0", "anchors": ["src/nbla/function/generic/add_n.cpp:68-88", "src/nbla/function/generic/mul_n.cpp:68-90"]}
{"id": "C134", "title": "Subtraction of the running mean: values", "statement": "In training MeanSubtraction moves the running mean to the mean of the batch by 1 / (t + 1) of the distance, counts t up and subtracts the new running mean; so from t = 0 on the running mean is the mean of the means of all batches. Otherwise it subtracts the running mean as it is; recomputation does so too and gives the same output. The count stays at the greatest int.", "quantifier": "all sizes, elements, running means, counts and sequences of batches", "why_tests_cant": "tests run a few batches", "anchors": ["src/nbla/function/generic/mean_subtraction.cpp:69-140"]}
{"id": "C135", "title": "Subtraction of the running mean: gradients", "statement": "In training, backward multiplies the gradient by the derivative of the output by its input, and with a fixed running mean it passes the gradient on; it is added to or put in place of what was there. This is the gradient of forward.", "quantifier": "all sizes, elements, counts and gradients", "why_tests_cant": "tests compare with the same approximation", "anchors": ["src/nbla/function/generic/mean_subtraction.cpp:142-211"]}
{"id": "C136", "title": "Clipping of gradients by value", "statement": "ClipGradByValue passes its input on; backward limits each element of the gradient to the range from its own lower to its own upper bound, and adds it to or puts it in place of what was there. The gradients of the bounds are set to 0 if they are wanted and not added to. Inputs of different shapes are an error.", "quantifier": "all shapes, elements, bounds and gradients", "why_tests_cant": "tests have inputs of equal shapes with a batch axis", "anchors": ["src/nbla/function/generic/clip_grad_by_value.cpp:27-108"]}
{"id": "C137", "title": "Remainder", "statement": "Mod2 of integers gives the remainder with the sign of the divisor, and with fmod the one with the sign of the dividend; of floating-point numbers it gives the one with the sign of the dividend, whatever fmod is. These are the only remainders less than the divisor with this sign.", "quantifier": "all integers and rational numbers", "why_tests_cant": "tests draw small numbers", "anchors": ["src/nbla/function/generic/mod2.cpp:25-172"]}
{"id": "C138", "title": "Random flips", "statement": "RandomFlip turns each sample along those of the given axes for which the numbers drawn for this sample are odd; each sample has numbers of its own. Backward takes the gradient of each element from where forward put it, and adds it to or puts it in place of what was there.", "quantifier": "all shapes, axes, numbers, elements and gradients", "why_tests_cant": "tests have one sample axis and do not turn it", "anchors": ["src/nbla/function/generic/random_flip.cpp:30-148"]}
{"id": "C139", "title": "Values of warping by a flow", "statement": "Each output of WarpByFlow is the bilinear mean of the four pixels around the place to which the flow at this output points, in the image of the same sample and channel, where the image goes on beyond its border as at the border.", "quantifier": "all sizes, data and flows", "why_tests_cant": "tests have flows of a few pixels and compare with a reference that has the same steps", "anchors": ["src/nbla/function/generic/warp_by_flow.cpp:51-98"]}
{"id": "C140", "title": "Gradients of warping by a flow", "statement": "The gradient of the data is the transpose of forward, which is linear in the data; the gradient of the flow is, at each place, the sum over channels of the gradients of the outputs times the slopes of the image there. Both are added to what was there if accum is set and replace it otherwise.", "quantifier": "all sizes, data, flows, gradients and directions", "why_tests_cant": "numerical gradients are taken at a few random flows", "anchors": ["src/nbla/function/generic/warp_by_flow.cpp:100-190"]}
{"id": "C141", "title": "Values of random shifts", "statement": "RandomShift moves each sample along the last axes by the amounts drawn for this sample, which are within the given limits on both sides; what comes from beyond the border is mirrored, the nearest element, or the constant, as border_mode says.", "quantifier": "all shapes, limits, modes, numbers and elements", "why_tests_cant": "tests only check that some shift explains the output, with small shifts", "anchors": ["src/nbla/function/generic/random_shift.cpp:43-112", "src/nbla/function/generic/random_shift.cpp:152-169"]}
{"id": "C142", "title": "Gradients of random shifts", "statement": "Backward of RandomShift is the transpose of forward without the constant, for the amounts drawn in forward; it is added to what was there if accum is set and replaces it otherwise. Each sample has amounts of its own.", "quantifier": "all shapes, limits, modes, numbers, elements, gradients and directions", "why_tests_cant": "tests have one sample axis and few shapes", "anchors": ["src/nbla/function/generic/random_shift.cpp:114-144", "src/nbla/function/generic/random_shift.cpp:192-207"]}
{"id": "C143", "title": "Random crops", "statement": "RandomCrop cuts from each sample, along the last axes, a part of the given sizes; where it starts is drawn for each sample, and it can be any place at which the part is within the input. Sizes above those of the input are refused. Backward is the transpose of forward, added to what was there if accum is set and in place of it otherwise.", "quantifier": "all shapes, sizes, numbers, elements, gradients and directions", "why_tests_cant": "tests only check that some cut explains the output, with one sample axis", "anchors": ["src/nbla/function/generic/random_crop.cpp:31-161", "src/nbla/function/generic/random_crop.cpp:184-200"]}
