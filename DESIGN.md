# Formal model of sony/nnabla in Rocq (Coq 8.16.1)

Each property of `properties.jsonl` is stated about a shallow Gallina model of
the code that implements it.  The model is split by area; every area has up to
four files in `rocq/theories/`:

* `<Area>Model.v`  - executable definitions mirroring the code, each citing the
  file and lines in `/repo` it models and the simplifications made;
* `<Area>Spec.v`   - the small independent specification the statements use;
* `<Area>Proofs.v` - lemmas;
* `<Area>Props.v`  - only the property theorems (each closed by `exact`, with
  `Print Assumptions`) and the non-vacuity examples.

If the code violates a property, the faithful model does too: the full
statement is refuted by a theorem `..._refuted` with a concrete witness, and the
part that does hold is proved as `..._partial`.

## Plan per property

| id | modelled | proof |
|----|----------|-------|
| C01-C03 | the parameter tree as a rose tree of ordered association lists; scope stack; `parameter_scope`, `get/set/pop_parameter`, `get_parameters`, `get_parameter_or_create`, `no_grad`; exceptions as values | refinement of the tree to a finite map from paths to variables; induction over nested programs |
| C04 | `get_slice_start_end` with and without `drop_last` | arithmetic |
| C05-C07 | `DataSource.next`, `DataIterator._next/next`, `SimpleDataSource`/`CsvDataSource` order handling, shuffles as an oracle list of permutations | invariant relating position, order and emitted list; refutation of C06 for straddling batches of `SimpleDataSource` |
| C08-C10 | memory cache, file cache, concatenation | refinement to the uncached source |
| C11-C13 | computation graph as a finite DAG over abstract functions; DFS forward, clear flags, rank-ordered backward with accumulate flags | correctness of DFS (post-order), last-use argument, adjoint accumulation in a commutative group |
| C13 | `BwModel`: open set ordered by rank, accumulate/overwrite/zero decisions, temporary gradients of sibling outputs, clearing of gradients; gradients in any commutative monoid with additive local derivatives | adjoint invariant over the processed functions; explicit enumeration of paths |
| C14 | `GradModel`: the two searches (inputs on the graph, children), the ranked open set, the dictionary of pending gradients | closure of the two searches; the adjoint invariant of C13 summed over the outputs; one refutation per dropped condition |
| C15, C39 | `SyncedArray` with its tree of narrowed children, head key, physical copies, lazy zero/fill flags; element conversions abstract | refinement to one vector of cells with windows; invariant: every copy marked current agrees with the cells, pending requests read top-down give the rest |
| C16-C17 | pointer-level heap of `Memory` blocks (next/prev/locked/disabled), two cache maps, counters | heap invariant: blocks tile the chunks |
| C18-C20 | solver maps, hooks, states, h5 key filtering | refinement / refutation with witness |
| C21 | loss-scaling updater with an oracle of overflow events | invariant over event lists |
| C22 | schedulers over Q / R | arithmetic |
| C23 | PfileModel, PfileSpec, PfileProofs 1-3, PfileProps: parameter files (HDF5 tree, protocol buffer, .nnp archive) over the registry of ParamModel | inserting a tree in listing order rebuilds the listing (induction on trees); sorting by index undoes any visiting order; refutations for names and contents a format cannot hold |
| C24 | the pack/unpack loops on flat arrays | round-trip law via conjugate partitions |
| C25-C26 | slice normalisation and copy loops; nd_index helpers | comparison with Python's slice definition; mixed-radix arithmetic |
| C27 | ProtoModel, ProtoProps, ProtoLoad: stack walk over a proto network, links read from a message | walking one function from the top of the stack (induction on rank), amortised count of turns |
| C28 | NameModel, NameProofs, NameProps: generated names | counter invariant; refutations |
| C29 | IdModel, IdSpec, IdProofs1-4, IdProps: identity removal run by the walk that it changes | one removal is a renaming that keeps the network well-formed; the walk is followed up to renaming; refutations outside the conditions |
| C30, C40 | scope programs; the scopes of graph_def with their global builder | induction over programs; refutations for nested graph scopes and exceptions |
| C31 | PrefModel: prefetchers with queues and workers, stepped by an arbitrary schedule; reads, resets, close | invariant "the last request pending is the announced file", preserved by every worker step; joins end because workers only reduce pending work |
| C32 | header parser | permutation argument |
| C33-C34 | slices of iterators, multi-worker windows, over the model of C05-C10 | the same iterator invariant, on the window of the slice |
| C35 | fused weight decay and clipping over the solver model of C18-C20 | equality of the two update sequences |
| C36-C37 | data kept by clear_no_need_grad, persistent flags of forward_all, over the graph model of C11-C12 | the same forward invariant; refutations for forward_all |
| C38 | function_reference_count as a table with per-function counts | induction over connect/destroy histories |
| C41-C43 | HalfModel: the conversions and comparisons of half.hpp, half.cpp and float_bits.hpp on integers as bit patterns | turning the bit operations into arithmetic on sign, exponent and fraction, then rounding lemmas |
| C44-C46 | IdxModel: the loops of shift, flip, pad, broadcast, transpose, gather_nd, gather, embed, matrix_diag(_part) as lists of (destination, source) offsets run over arrays of integers | every loop nest equals the list of source offsets in row-major order, built from one description per axis; merging adjacent axes keeps that list; the gradient is the same list the other way around |
| C47 | `JoinModel.v`: setup (axis refinement, size products, division by the axis size as C++ does it, so division by zero is an error value) and the copy loops of concatenate, stack and split with checked reads and writes.; exact integers, unbounded sizes | every loop writes distinct positions, so one lemma on nested loops gives each element; positions compared through (prefix, position on the axis, suffix) |
| C48 | `ScanModel.v`: setup and the loops of cumsum and cumprod, forward and backward, on arrays of rational numbers (`Qc`) with checked reads and writes | one lemma on independent lines of an array; loop invariants on one line in scan order; derivatives defined by what changing one input element does to the weighted output, with no reference to the backward pass |
| C49 | `ReduceModel.v`: setup of Sum with the members it leaves behind (refined axes, transposition, reduction size), the transposition around the row loops, and the loops of Sum, Mean, Prod, Max and Min | masks of reduced axes; the transposition takes the index `idx` to the kept part followed by the reduced part; groups are filtered from all indices in the statement and shown to be the rows; derivatives as in C48 |
| C50, C51 | `SortModel.v`: setup and loops of Sort, the heap algorithm of top_k.hpp, TopKData and TopKGrad | std::sort and the heap functions are parameters constrained by what the C++ standard promises (`sorting`, `heaping`), with insertion sort as a witness that the promises can be kept; heap loop invariant: the heap holds the k best elements seen, its front the worst of them |
| C52, C53 | `ConvModel.v`: the three unfold and fold kernels, matrix products with offsets, setup, forward and backward of Convolution and Deconvolution | kernels shown equal to one loop over all kernel and output indices; the patch matrix element is then given by a partial map from (row, column) to image positions; products become sums, and adjointness is exchanging sums; layer-level statements translate positions to indices |
| C54, C55, C56 | `PoolModel.v`: shape, windows with clipping, running pointers, maximum search, MaxPoolingBackward, GlobalAveragePooling, the recursion of Unpooling | the clipped loops visit exactly the covered indices, in order (lists equal); nested loops with running pointers are shown equal to one loop over output positions; MaxPoolingBackward and the gradient of MaxPooling become the same loop |
| C57, C58 | `MatModel.v`: Affine and BatchMatmul, over rational numbers | products as sums over flat positions, repetition as a map of samples; everything accepted by the setups is characterised; gradients as adjoints of the forward pass |
| C59 | `MaskModel.where_setup`, `where_forward`, `where_backward`, `fill_setup`, `fill_forward`, `fill_backward` | The division of the flat index is followed by the loop invariants of MaskProofs1; the repeated mask by the Broadcast lemmas of Mat; the specification indexes with the mask axes only. |
| C60 | `MaskModel.bg_setup`, `bg_forward`, `bg_backward`, `bs_setup`, `bs_forward`, `bs_backward`, `bool_gather`, `bool_scatter` | `rank b` counts the set places before b; the invariant of the inner loop says that the counter is the rank; ranks and the list of chosen indices are inverse to each other. |
| C61 | `MaskModel.oh_setup`, `oh_addr`, `oh_forward` | The address loop over the reversed shape computes the row-major position of the normalised classes; each row is written at most once. |
| C62 | `ScatModel.sa_setup`, `sa_pairs`, `sa_forward`, `sa_backward` | The list of pairs of positions is computed in closed form from the strides; adding over pairs is a finite sum (`adds_ok`), so forward and backward are adjoint by exchanging sums. |
| C63 | `ScatModel.snd_setup`, `snd_forward`, `snd_backward`, `snd_pairs`, `snd_step` | The pairs are those of GatherNd swapped; copying over pairs keeps the last one (`copies_ok`), and the loop that clears the output gradient serves the first (`moves_ok`). |
| C64 | `KeyModel.prepare`, `result_shape`, `getitem` | NumPy's rule is a relation on the completed key (`expands`, `gives`, `takes`); by induction on it the slices of the entries, their lists of indices and the equality of offsets in the two shapes follow, and C25 gives the elements. |
| C65 | `KeyModel.np_slice`, `grid`, `spread`, `setitem` | The lists of NumPy are those of Python's slices; the array of indices places each entry at the element read by C64, so C63 applies with distinct places. |
| C66 | `KeyModel.indices_of`, `nonzero`, `agetitem`, `asetitem` | The array of indices is a concatenation of equal blocks; its places are those chosen by the arrays or marked by the mask, and GatherNd and ScatterNd (C45, C63) do the rest. |
| C67–C69 | `BinModel.v`: TransformBinary, TransformUnary, Add2, operators of NdArray | `BinProofs1–3.v`: the offsets reached by merged axes are the offsets of the repeated elements (induction over the merging); loops that write or add element by element |
| C70, C71, C72 | ActModel.v | every function is a constructor, its two expressions and its flags are read from the macros; derivatives by rules of derivation on real numbers, kinks by slopes from both sides, stable forms proved equal to the textbook ones |
| C73, C74, C75 | SmModel.v | loops over flat memory as written; each loop is shown to write its own line only, sums over lines are sums over elements, gradients are derivatives of weighted sums of outputs (from both sides at kinks) |
| C76, C77, C78 | BnModel.v | the loops over channels as written, in training and testing mode; running variances may be no numbers; the gradient in x is reduced to derivatives of the mean and the variance of one channel, by the chain rule on each line |
| C79, C80, C81 | UpdModel.v | one update of each solver as written; theorems are about whole histories of updates: recurrences are solved to discounted sums, averages and maxima over all gradients so far, bounds follow from convexity and the triangle inequality |
| C82, C83 | BfModel.v | graphs of elementwise functions with the gradient graphs of the Python backward functions; an induction on graphs shows that each gradient graph is again regular (one order less) and evaluates to the derivative, so the orders follow by induction on the list of inputs |
| C84 | BfaModel.v | the Python gradients are run on the models of the C++ functions they call (BinModel, ReduceModel, IdxModel) and compared element by element with the C++ backward passes of C49 and C68 |
| C85 – C87 | SwapModel.v | the scheduler is transcribed step by step; an invariant ties its counters, states and queues to a replay of the schedule so far in which every array is absent, resident or leaving; attempts end because the stopping functions of records only go up |
| C88 | `search` with fuel for the recursion over all rows | the two ends and the middle bound the place; the place is unique |
| C89 | sort, scan over neighbours and the outputs in `unique`, with both sorts given | an invariant of the scan: the first of each run is the first occurrence because the sort is stable |
| C90 | the two loops of `non_zero` and the empty forward pass | columns of the output are the filtered indices |
| C91 | loops over samples of `top_n_forward`, `confusion_forward` and `binary_error_forward` | a ranking that puts the label last among equal scores shows both directions |
| C92 | `calculate_iou`, `onnx_iou` over rational numbers | boxes as sets of points; the intersection is unique, so the ratio is |
| C93 | `nms_detection` with loops over classes, images and pairs; std::sort by its contract | one lemma on greedy suppression over any state; columns of different classes are disjoint |
| C94 | `nms_detection` by objectness: pairs from the last box to the first | rows of different boxes are disjoint, boxes are not written |
| C95 | `onnx_setup`: selection flags, limit, rows | the lemma on greedy suppression of C93 with flags as state |
| C96 | `fixed_setup`, `fixed_value` (cast to int with overflow), `fixed_backward` | nearest grid point: distance of roundings, then ends of the range |
| C97 | `pow2_setup`, `round_log2`, `pow2_value`, `pow2_factor` | powers of two as rationals; nearest by factor via squares, so no logarithm is needed |
| C98 | `quantize_linear`, `dequantize_linear`, `linear_backward` on the model of broadcast of C83 | wide-operation lemmas; both roundings as a relation |
| C99 | `tracked`, `nudged`, `min_max_quantize`, `min_max_backward` composed from Min, Max, Broadcast and Sum | lemmas of C39, C64; rounding to levels by scaling |
| C100 | `prune_index`, `prune`, `prune_backward` | counts around an element of a sorted list |
| C101 | `tile_setup`, `tile`, `tile_backward` with the do-while loops over indices | one block of the map per round; axes from last to first |
| C102 | `matrices`, `trilu`, `trilu_backward`, `eye_like` | nested loops as one loop over places |
| C103 | `mesh_shape`, `meshgrid`, `meshgrid_backward` on the model of broadcast of C84 | inputs as arrays that extend along one axis |
| C104 | `linspace`, `arange` for rational numbers and for floats of SpecFloat | first place that is not before stop; numbers that do not change by a step |
| C105 | `shape_op`, `bit_shift` on the model of binary operations of C67 | cases of bounds; shifts as products and quotients by powers of two |
| C106-C109 | `GcvModel.v`: graphs of variables, functions and buffers as lists; visiting, the table of new inputs, the modifiers; what functions compute is a parameter | `GcvSpec.v` says what a variable computes as an inductive relation; one theorem about a round of conversion for any relation between old and new variables (`GcvProofs3.v`), used with one relation per modifier; refutations by small networks of integers |
| C110-C113 | `FoldModel.v`: NumPy arrays as shapes and lists of rational numbers; numpy.sqrt is a parameter | parameters with one axis of channels (`FoldProofs1.v`); the theorems on networks compose these with the theorems on convolutions (C52, C53), affine layers (C57) and broadcasting (C67); refutations compute one pixel |
| C114-C117 | `ItpModel.v`: all loops of interpolate.cpp; scales and coordinates are rational numbers | one axis first: the two pixels and weights are those of a hat function (`ItpProofs1.v`); nested loops as one loop over indices (`ItpProofs2.v`, `ItpProofs3.v`); the hat weights add up to 1 and are 0 or 1 at pixels (`ItpProofs5.v`) |
| C118 | RcModel.v: RandomChoice with replacement, with a generator as the list of its numbers | partial sums; a number lies between two neighbouring ones; induction over samples and populations |
| C119 | RcModel.v: sampling without replacement, rounds with sums of the weights left at their beginning | the first number of a round always finds something new, so rounds get shorter; taken places have weight 0 |
| C120 | RcModel.v: backward_impl, forward_impl and recompute_impl with generators, setup_impl | positions of rows in memory; adjoint by adding up over loops |
| C121 | PcModel.v: forward_impl with its five outer and three inner loops and the output counter | loops with steps as loops over indices; the counter is the offset of the index |
| C122 | PcModel.v: backward_impl, both gradients in one loop | each addition changes the inner products with all vectors by a known number; sums over loops |
| C123 | PcModel.v: setup_impl, F.patch_correlation with its transposes | cases of the checks; quotients as counts |
| C124, C125 | WgModel.v: the 2-D kernels of WarpByGrid, with the padding modes, forward and backward for the image | places as reflections; loops as sums over indices; weights as a sum over the pixels |
| C126 | WgModel.v: generate_target_grid_2d and its product with the matrix | loops as for C124; a place on a pixel is kept by every border |
| C127 | WgGradModel.v: warp_linear_backward_grid_2d with the coefficients of the padding modes | the slope of a border on each piece; bilinear values are linear along an axis within a cell |
| C128, C129 | MonModel.v: the state of MonitorSeries and MonitorTimeElapsed and their add; when MonitorImage writes | induction over the calls, with the values that wait as the start of the next group |
| C130, C131 | DropModel.v: the members of Dropout, the global generator, the contents of masks and the mask that each Variable refers to; setup, forward, recompute, backward and the graph derivative | induction over the elements, with the generator as seed and count of numbers |
| C132, C133 | NaryModel.v: the two loops over inputs of AddN and MulN with the mask of active inputs, and what backward does for one input; a quotient by zero is no number | induction over the inputs, per element |
| C134, C135 | MsubModel.v: forward of MeanSubtraction with flat arrays, the running mean and its count; backward of both modes | the count times the running mean is the sum of the means; change of one element of the input |
| C136 | ClipModel.v: the checks of shapes, forward and backward of ClipGradByValue; reading past an end is undefined | induction over axes and elements |
| C137 | ModModel.v: the remainders of Mod2 for one pair of elements, with integers, integers as doubles and rational numbers | bounds and signs of Z.rem, uniqueness by multiples that are too small |
| C138 | FlipModel.v: flip_recursive of RandomFlip as the list of offsets that are read, with the index of flips that goes along; the drawing of flips; forward and backward | induction over the axes with all indices in order; turning twice gives the index back |
| C139, C140 | FlowModel.v: the loops of forward and backward of WarpByFlow over flat arrays, with the corners and their bounds | whether both corners along an axis fall on the same pixel; scalar products with a fixed direction, by induction over the outputs |
| C141, C142 | ShiftModel.v: the tables of addresses of RandomShift, shift_recursive as the list of offsets that are read, with the index of tables that goes along; the drawing of shifts; forward and backward | each entry of a table against the place that the mode means; induction over the axes; scalar products with a fixed direction |
| C143 | CropModel.v: setup of RandomCrop, slice_forward_recursive as the list of offsets that are read, with the index of cuts that goes along; the drawing of cuts; forward and backward | induction over the axes; scalar products with a fixed direction |

## Trusted base

* Coq 8.16.1's kernel and standard library; std++ (axiom free).
* `Print Assumptions` under each property theorem must report
  "Closed under the global context" or only standard-library axioms (listed
  below when they occur).
* Standard-library axioms used, only by theorems about real numbers (`Lr*.v` and
  later files that import `Reals`): `ClassicalDedekindReals.sig_not_dec`,
  `ClassicalDedekindReals.sig_forall_dec`,
  `FunctionalExtensionality.functional_extensionality_dep`,
  `Classical_Prop.classic`.
* The reading of the source: nothing here is extracted from or run against the
  code; each definition cites the lines it models.
