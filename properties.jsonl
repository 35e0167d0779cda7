{"id": "C01", "title": "Fresh tensors are addressed row-major and one-to-one", "statement": "For a tensor created with any shape, every in-range multi-index addresses a storage position below the number of elements, different multi-indices address different positions, every position is addressed, and positions follow row-major (last axis fastest) order.", "quantifier": "every shape (any rank, any dimension sizes including 0 and 1) and every multi-index", "why_tests_cant": "the set of shapes and indices is infinite; tests only sample a few ranks", "anchors": ["crates/hodu_core/src/types/layout.rs:Layout::from_shape", "crates/hodu_core/src/types/layout.rs:Layout::compute_strides", "crates/hodu_core/src/types/shape.rs:Shape::size"]}
{"id": "C02", "title": "No chain of views reads outside the storage", "statement": "Starting from a freshly created tensor, after any sequence of successful reshape, flatten, squeeze (of distinct axes; see C07), unsqueeze, broadcast_to, transpose, permute and slice (positive step) calls, every in-range multi-index of the resulting view addresses a position inside the original storage.", "quantifier": "every shape, every finite sequence of view operations with any arguments, every in-range index", "why_tests_cant": "chains of views compose strides and offsets in unboundedly many ways and an out-of-bounds read is silent in the C kernels", "anchors": ["crates/hodu_core/src/types/layout.rs:Layout::{reshape,flatten,squeeze,unsqueeze,broadcast_to,transpose,permute,slice}", "crates/hodu_core/src/tensor/ops/shape.rs"]}
{"id": "C03", "title": "Every view operation selects the mathematically right element", "statement": "For each view operation, the element of the result at multi-index i is the element of the operand at the index given by the textbook rule of that operation (same row-major position for reshape/flatten/squeeze/unsqueeze, swapped or permuted coordinates, dropped coordinates for broadcast, start+step*i for slice with positive step); the property is closed under composing operations.", "quantifier": "every operand layout reachable by views, every accepted argument, every in-range index of the result", "why_tests_cant": "needs all strides/offset combinations; a test with one contiguous operand misses stride or offset mistakes", "anchors": ["crates/hodu_core/src/types/layout.rs:Layout::{reshape,flatten,squeeze,unsqueeze,broadcast_to,transpose,permute,slice}"]}
{"id": "C04", "title": "Slicing with a negative step walks backwards", "statement": "t.slice(dim, start, end, step) with step < 0 selects, along dim, the elements start, start+step, start+2*step, ... down to but excluding end, as in Python.", "quantifier": "every dimension size, start, end and negative step", "why_tests_cant": "the visible shape is right for every input while the selected elements are wrong, so shape assertions pass", "anchors": ["crates/hodu_core/src/types/layout.rs:Layout::slice", "crates/hodu_core/src/tensor/ops/shape.rs:Tensor::slice"]}
{"id": "C05", "title": "Transpose and permute are exactly the axis permutations", "statement": "permute(axes) succeeds exactly when axes (after negative-axis normalisation) is a permutation of all axes; transposing the same two axes twice, or permuting by axes and then by the inverse permutation, gives back the original layout (shape, strides, offset).", "quantifier": "every layout and every list of signed axes", "why_tests_cant": "the acceptance condition is an iff over all integer lists", "anchors": ["crates/hodu_core/src/types/layout.rs:Layout::permute", "crates/hodu_core/src/types/layout.rs:Layout::transpose", "crates/hodu_core/src/types/shape.rs:Shape::normalize_axis"]}
{"id": "C06", "title": "Reshape preserves the element sequence", "statement": "On a contiguous view, reshape succeeds exactly when the element counts agree, keeps the row-major sequence of elements, and reshaping back restores the original layout.", "quantifier": "every contiguous layout (any offset) and every target shape", "why_tests_cant": "equality of sequences for all shapes of all ranks", "anchors": ["crates/hodu_core/src/types/layout.rs:Layout::reshape", "crates/hodu_core/src/types/layout.rs:Layout::flatten", "crates/hodu_core/src/types/layout.rs:Layout::is_contiguous"]}
{"id": "C07", "title": "Squeeze removes only size-1 axes", "statement": "squeeze(dims) on a contiguous tensor keeps the number of elements and their order: it only removes axes of size 1, each named axis once; unsqueeze(d) followed by squeeze([d]) is the identity.", "quantifier": "every contiguous layout and every list of signed axes, including lists naming an axis twice (e.g. [0,-2])", "why_tests_cant": "aliases of the same axis are easily missed by example tests", "anchors": ["crates/hodu_core/src/types/layout.rs:Layout::squeeze", "crates/hodu_core/src/types/layout.rs:Layout::unsqueeze"]}
{"id": "C08", "title": "Operand broadcasting follows the right-aligned rule", "statement": "For two operands the common shape computed by the tensor operations is, aligned at the last axis, the common size where they agree or the other one's size where one is 1, and is refused otherwise; it does not depend on operand order, is idempotent, is associative across three operands, and each operand can be viewed at the common shape.", "quantifier": "every pair and triple of shapes", "why_tests_cant": "associativity and commutativity over all shapes of all ranks", "anchors": ["crates/hodu_core/src/tensor/utils.rs:broadcast_tensors2", "crates/hodu_core/src/tensor/utils.rs:broadcast_tensors3", "crates/hodu_core/src/types/layout.rs:Layout::broadcast_to", "crates/hodu_core/src/types/shape.rs:Shape::can_broadcast_to"]}
{"id": "C09", "title": "The public broadcast_shape helper agrees with the broadcasting rule", "statement": "Shape::broadcast_shape(a,b) returns the right-aligned broadcast of a and b, and None exactly when they are incompatible.", "quantifier": "every pair of shapes", "why_tests_cant": "fails only for operands of different rank with a leading size other than 1", "anchors": ["crates/hodu_core/src/types/shape.rs:Shape::broadcast_shape", "crates/hodu_core/src/types/layout.rs:Layout::broadcast_layouts"]}
{"id": "C10", "title": "The contiguity test is exact", "statement": "is_contiguous() returns true exactly for layouts whose strides are the row-major strides of their shape; whenever it returns true the k-th element in row-major order is stored at offset+k.", "quantifier": "every layout", "why_tests_cant": "implication must hold for every stride vector", "anchors": ["crates/hodu_core/src/types/layout.rs:Layout::is_contiguous", "crates/hodu_core/src/types/layout.rs:Layout::compute_strides"]}
{"id": "C11", "title": "Signed axes are resolved consistently", "statement": "A signed axis a on a rank-n shape is accepted exactly when -n <= a < n and then denotes axis a or a+n; equivalent spellings give identical results in transpose, permute, slice, squeeze and unsqueeze.", "quantifier": "every rank and every 32-bit axis", "why_tests_cant": "boundary values differ per operation (insertion has n+1 positions)", "anchors": ["crates/hodu_core/src/types/shape.rs:Shape::normalize_axis", "crates/hodu_core/src/types/shape.rs:Shape::dim_size", "crates/hodu_core/src/types/layout.rs:Layout::dim_size", "crates/hodu_core/src/types/layout.rs:Layout::{slice,squeeze,unsqueeze}"]}
{"id": "C12", "title": "Reading a tensor back yields its logical elements", "statement": "to_flatten_vec() of any tensor returns exactly its logical elements in row-major order, in particular for views produced by slice, transpose or broadcast.", "quantifier": "every storage, every layout reachable by view operations", "why_tests_cant": "tests read back fresh tensors, for which storage order and logical order coincide", "anchors": ["crates/hodu_core/src/tensor/vec.rs:extract_with_layout", "crates/hodu_core/src/tensor/vec.rs:Tensor::to_flatten_vec"]}
{"id": "C13", "title": "Saving bytes and loading them back restores the tensor", "statement": "from_bytes(to_bytes(t), shape(t), dtype(t)) succeeds and has the same logical elements as t, for every tensor including views.", "quantifier": "every storage and reachable layout, every dtype", "why_tests_cant": "the failure needs a sliced view whose storage is larger than its element count", "anchors": ["crates/hodu_core/src/tensor/bytes.rs:Tensor::to_bytes", "crates/hodu_core/src/tensor/bytes.rs:Tensor::from_bytes", "crates/hodu_core/src/format/hdt.rs:save"]}
{"id": "C14", "title": "Scalar byte encoding round-trips for every dtype", "statement": "Encoding a storage element to little-endian bytes and decoding it gives the same element for every dtype and every representable value; the encoded length is the dtype size; decoding any byte string of the right length and re-encoding gives the same bytes (BOOL excepted: any non-zero byte decodes to true).", "quantifier": "every dtype, every list of values, every byte string", "why_tests_cant": "2^64 values per element and unbounded lists", "anchors": ["crates/hodu_core/src/tensor/bytes.rs:storage_to_bytes", "crates/hodu_core/src/tensor/bytes.rs:bytes_to_storage", "crates/hodu_core/src/types/dtype.rs:DType::size_in_bytes"]}
{"id": "C15", "title": "dtype identifiers are faithful across the plugin boundary", "statement": "Core and plugin dtypes correspond one-to-one with equal numeric tag, name and byte size; parsing a dtype's printed name yields the same dtype, and distinct dtypes have distinct names and tags.", "quantifier": "every dtype and every string", "why_tests_cant": "parsing ranges over all strings", "anchors": ["crates/hodu_core/src/types/dtype.rs:DType", "crates/hodu_plugin/src/tensor.rs:PluginDType", "hodu-plugin-sdk/src/tensor.rs:core_dtype_to_plugin"]}
{"id": "C16", "title": "Nested array literals become tensors with the stated shape", "statement": "For a nested array of rows, the shape computed for the tensor has exactly as many elements as the flattened data, and reading back the 2-D nesting gives the rows; arrays with rows of different lengths are refused.", "quantifier": "every list of rows", "why_tests_cant": "ragged input is silently accepted, so tests with rectangular arrays pass", "anchors": ["crates/hodu_core/src/into/flatten.rs", "crates/hodu_core/src/tensor/creation.rs:Tensor::new", "crates/hodu_core/src/tensor/vec.rs:Tensor::to_vec2d"]}
{"id": "C17", "title": "Element-wise kernels compute f at every logical index of arbitrary strided operands", "statement": "The CPU binary kernel, given operands with any strides and offsets broadcast to a common shape, writes at row-major position k the value f(a[i],b[i]) where i is the k-th multi-index; the fast paths for contiguous operands give the same answer.", "quantifier": "every function f, shapes, strides, offsets and storages", "why_tests_cant": "combination of fast paths, strides and offsets is unbounded", "anchors": ["crates/hodu_cpu_kernels/kernels/ops_binary.c:IMPL_BINARY_OP", "crates/hodu_cpu_kernels/kernels/utils.h:get_strided_index", "crates/hodu_core/src/op_metadatas.rs:binary_metadata"]}
{"id": "C18", "title": "The tensor returned by a binary operation holds f(a,b) at every index", "statement": "Reading any index of a.op(&b) through the layout of the returned tensor gives f(a[i],b[i]), whatever views or broadcasts a and b are.", "quantifier": "every pair of operand tensors (views included) with compatible shapes", "why_tests_cant": "only a left operand that is broadcast or offset exposes the stale strides", "anchors": ["crates/hodu_core/src/tensor/ops/binary.rs", "crates/hodu_core/src/tensor/ops/cmp.rs", "crates/hodu_core/src/tensor/ops/bitwise.rs", "crates/hodu_core/src/tensor/utils.rs:broadcast_tensors2"]}
{"id": "C19", "title": "Work splitting across threads covers every element exactly once", "statement": "For any number of elements and any positive number of threads, the index ranges handed to the worker threads are disjoint, ordered, and their union is exactly 0..n; hence the parallel element-wise loop writes the same result as the sequential one under every interleaving.", "quantifier": "every element count, thread count, and interleaving of the workers' writes", "why_tests_cant": "interleavings and remainders are unbounded", "anchors": ["crates/hodu_cpu_kernels/kernels/thread_utils.h"]}
{"id": "C20", "title": "Unary operations compute f at every logical index", "statement": "The result of a unary operation on any view holds f(x[i]) at every index i.", "quantifier": "every f, shape, strides, offset, storage", "why_tests_cant": "strided and contiguous paths differ", "anchors": ["crates/hodu_cpu_kernels/kernels/ops_unary.c", "crates/hodu_core/src/tensor/ops/unary.rs", "crates/hodu_core/src/op_metadatas.rs:unary_metadata"]}
{"id": "C21", "title": "where3 selects by the condition", "statement": "where3 returns at every index the first value where the condition is true and the second where it is false (for finite values).", "quantifier": "every mask and pair of value tensors", "why_tests_cant": "implemented by arithmetic; equality must hold for all values", "anchors": ["crates/hodu_core/src/tensor/ops/selection.rs:Tensor::where3"]}
{"id": "C22", "title": "clamp keeps values in range", "statement": "clamp(lo,hi) with lo <= hi returns x where lo <= x <= hi, lo where x < lo and hi where x > hi; clamp_min and clamp_max likewise.", "quantifier": "every value and bounds", "why_tests_cant": "holds or fails for whole ranges of values", "anchors": ["crates/hodu_core/src/tensor/ops/selection.rs:Tensor::clamp", "crates/hodu_core/src/tensor/ops/selection.rs:Tensor::clamp_min", "crates/hodu_core/src/tensor/ops/selection.rs:Tensor::clamp_max"]}
{"id": "C23", "title": "masked_fill fills exactly the masked positions", "statement": "masked_fill(mask,v) is v where the mask is true and the original value elsewhere.", "quantifier": "every mask, tensor and fill value", "why_tests_cant": "must hold for every mask", "anchors": ["crates/hodu_core/src/tensor/ops/selection.rs:Tensor::masked_fill"]}
{"id": "C24", "title": "Sum reduction adds exactly the elements of each fibre", "statement": "The reduce-sum kernel writes, for each output index, the sum of all input elements whose kept coordinates equal that index, for any subset of reduced axes and any strides/offset; every input element contributes to exactly one output.", "quantifier": "every shape, strided view, set of reduced axes, keep_dim flag", "why_tests_cant": "axis subsets and ranks unbounded", "anchors": ["crates/hodu_cpu_kernels/kernels/ops_reduce.c", "crates/hodu_core/src/be_cpu/storage/ops_reduce.rs", "crates/hodu_core/src/op_metadatas.rs:reduce_metadata"]}
{"id": "C25", "title": "Reduction output shape", "statement": "Reducing a set of axes gives the input shape with those axes removed (keep_dim=false) or replaced by 1 (keep_dim=true).", "quantifier": "every shape (including zero-size dimensions) and set of axes", "why_tests_cant": "zero-size kept axes are the exception", "anchors": ["crates/hodu_core/src/tensor/ops/reduce.rs:reduce_operation", "crates/hodu_core/src/be_cpu/storage/ops_reduce.rs"]}
{"id": "C26", "title": "Cumulative sum is the prefix sum along the axis", "statement": "cumsum(dim) writes at every index the sum of the elements with the same other coordinates and a coordinate along dim not larger; the difference of neighbouring outputs is the input.", "quantifier": "every shape, axis, strides, offset, storage", "why_tests_cant": "recurrence over an unbounded axis", "anchors": ["crates/hodu_cpu_kernels/kernels/ops_scan.c", "crates/hodu_core/src/tensor/ops/scan.rs"]}
{"id": "C27", "title": "Concatenation places every input in its slot", "statement": "concat(ts,dim) has at index i the element of the input owning coordinate i[dim] (in order), at the coordinate shifted by the sizes of the preceding inputs; this holds for views as well as fresh tensors.", "quantifier": "every list of tensors with compatible shapes, including sliced views", "why_tests_cant": "tests concatenate fresh tensors whose storage length equals their element count", "anchors": ["crates/hodu_core/src/tensor/ops/concat_split.rs:Tensor::concat", "crates/hodu_core/src/be_cpu/storage/ops_concat_split.rs:call_ops_concat", "crates/hodu_core/src/op_metadatas.rs:concat_metadata", "crates/hodu_cpu_kernels/kernels/ops_concat_split.c"]}
{"id": "C28", "title": "Split then concat is the identity", "statement": "split(sizes,dim) with positive sizes adding up to the axis length returns pieces of those sizes whose concatenation along dim is the original tensor.", "quantifier": "every shape, axis, list of sizes and strided operand", "why_tests_cant": "lists of sizes are unbounded", "anchors": ["crates/hodu_core/src/tensor/ops/concat_split.rs:Tensor::split", "crates/hodu_cpu_kernels/kernels/ops_concat_split.c", "crates/hodu_core/src/op_metadatas.rs:split_metadata"]}
{"id": "C29", "title": "chunk covers the axis", "statement": "chunk(n,dim) with n >= 1 returns pieces that together cover the axis exactly once, in order, each at most ceil(len/n) long; it never fails for a valid axis.", "quantifier": "every axis length and chunk count", "why_tests_cant": "only some (len,n) pairs underflow", "anchors": ["crates/hodu_core/src/tensor/ops/concat_split.rs:Tensor::chunk"]}
{"id": "C30", "title": "Flip is an involution that reverses the named axes", "statement": "flip(dims) has at index i the element whose coordinates along dims are mirrored; flipping twice gives the original.", "quantifier": "every shape and set of axes", "why_tests_cant": "subset of axes and ranks unbounded", "anchors": ["crates/hodu_cpu_kernels/kernels/ops_shape_memory.c", "crates/hodu_core/src/tensor/ops/shape_memory.rs"]}
{"id": "C31", "title": "Index selection reads the named slices", "statement": "index_select(dim,idx) has at coordinate j along dim the slice idx[j] (negative counting from the end); gather picks at every index the element whose coordinate along dim is given by the index tensor.", "quantifier": "every shape, axis, index vector, strides", "why_tests_cant": "index vectors are unbounded", "anchors": ["crates/hodu_cpu_kernels/kernels/ops_indexing.c", "crates/hodu_core/src/tensor/ops/indexing.rs"]}
{"id": "C32", "title": "Padding reads the mathematically right source element", "statement": "Reflect, replicate and circular padding read a source coordinate that is always in range and equals the textbook rule; constant padding writes the value exactly outside the original box.", "quantifier": "every axis length, padding widths and position", "why_tests_cant": "boundary arithmetic over all integers", "anchors": ["crates/hodu_cpu_kernels/kernels/ops_padding.c", "crates/hodu_core/src/tensor/ops/padding.rs"]}
{"id": "C33", "title": "top-k returns the k extreme elements", "statement": "topk(k,dim,largest,sorted) returns k entries which are the k largest (smallest) elements of the fibre as a multiset, each value being the element at the returned index, indices distinct, in order when sorted.", "quantifier": "every fibre and k", "why_tests_cant": "selection order must be right for every permutation and tie pattern", "anchors": ["crates/hodu_cpu_kernels/kernels/ops_sort.c", "crates/hodu_core/src/tensor/ops/sort.rs"]}
{"id": "C34", "title": "Window reductions cover exactly the window", "statement": "reduce_window computes at each output position the reduction of precisely the in-bounds elements of its window; the output size is floor((L+pl+pr-W)/S)+1.", "quantifier": "every length, window, stride, padding", "why_tests_cant": "boundary arithmetic for all parameters", "anchors": ["crates/hodu_cpu_kernels/kernels/ops_windowing.c", "crates/hodu_core/src/be_cpu/storage/ops_windowing.rs", "crates/hodu_core/src/tensor/ops/windowing.rs"]}
{"id": "C35", "title": "einsum computes the contraction it names", "statement": "einsum(subscripts, tensors) has at each output index the sum over the contracted labels of the product of all operands.", "quantifier": "every subscript string and operands", "why_tests_cant": "subscripts are unbounded strings", "anchors": ["crates/hodu_core/src/tensor/ops/einsum.rs", "crates/hodu_core/src/einsum.rs", "crates/hodu_core/src/be_cpu/storage/ops_einsum.rs", "crates/hodu_core/src/op_metadatas.rs:einsum_metadata", "crates/hodu_cpu_kernels/kernels/ops_einsum.c"]}
{"id": "C36", "title": "Matrix multiplication", "statement": "matmul of (batched, broadcast, strided) operands has at (.., i, j) the sum over k of a(..,i,k)*b(..,k,j).", "quantifier": "all batch shapes, sizes, strides, offsets", "why_tests_cant": "blocked and strided paths over all sizes", "anchors": ["crates/hodu_cpu_kernels/kernels/ops_matrix.c", "crates/hodu_core/src/be_cpu/storage/ops_matrix.rs", "crates/hodu_core/src/tensor/ops/matrix.rs"]}
{"id": "C37", "title": "backward() computes the transposed Jacobian", "statement": "For any recorded computation, the gradient stored on each leaf is the sum over all paths from the loss, i.e. the vector-Jacobian product, provided each operation's local rule is its transposed derivative; shared sub-expressions are accounted once per use and operations not reaching the loss contribute nothing.", "quantifier": "every tape (any DAG of operations)", "why_tests_cant": "DAG shapes with sharing are unbounded", "anchors": ["crates/hodu_core/src/tensor/gradient/compute.rs:compute_gradients", "crates/hodu_core/src/tensor/gradient/tape.rs"]}
{"id": "C38", "title": "Local derivative rules are the derivatives", "statement": "For each differentiable unary and binary scalar operation the recorded VJP multiplies the incoming gradient by the mathematical derivative wherever the function is differentiable.", "quantifier": "every real input (in the domain of the function)", "why_tests_cant": "equality of functions over the reals", "anchors": ["crates/hodu_core/src/tensor/gradient/vjp_unary.rs", "crates/hodu_core/src/tensor/gradient/vjp_binary.rs"]}
{"id": "C39", "title": "Gradient of a sum is a broadcast of the incoming gradient", "statement": "For y = x.sum(dims, keep_dim) the gradient of x at index i equals the gradient of y at the kept coordinates of i, for both keep_dim values (mean: divided by the number of reduced elements).", "quantifier": "every shape, dims and keep_dim", "why_tests_cant": "square shapes hide mis-aligned broadcasting", "anchors": ["crates/hodu_core/src/tensor/gradient/vjp_reduce.rs"]}
{"id": "C40", "title": "Gradient of transpose and permute is the inverse axis permutation", "statement": "For y = x.permute(axes) (or transpose) the gradient of x at i is the gradient of y at the permuted index.", "quantifier": "every shape and permutation, including shapes with equal sizes", "why_tests_cant": "rules that guess the permutation from sizes fail only when two axes have equal size", "anchors": ["crates/hodu_core/src/tensor/gradient/vjp_shape.rs"]}
{"id": "C41", "title": "Gradient bookkeeping survives errors and nesting", "statement": "After backward() returns - with success or error - recording is enabled again; nothing computed during backward is recorded; after success the tape is empty; leaving a gradient context restores the one that was active before, for properly nested contexts.", "quantifier": "every sequence of operations, nested contexts and failures at any step", "why_tests_cant": "error paths at every tape position", "anchors": ["crates/hodu_core/src/tensor/gradient/compute.rs", "crates/hodu_core/src/tensor/gradient/context.rs"]}
{"id": "C42", "title": "Tensor handles stay valid and memory is released", "statement": "A tensor is usable as long as a handle to it exists, whatever clones, drops, gradient assignments happened in between; when the last handle is gone and nobody's gradient refers to it, its entry is removed; identifiers are never reused.", "quantifier": "every history of create, clone, drop, set_grad, zero_grad operations", "why_tests_cant": "histories are unbounded and aliasing-dependent", "anchors": ["crates/hodu_core/src/tensor/core.rs", "crates/hodu_core/src/tensor/internal.rs", "crates/hodu_core/src/tensor/registry.rs"]}
{"id": "C43", "title": "A captured snapshot is closed and topologically ordered", "statement": "In the snapshot produced by a capture session every operand of every node, and every target, is an input, a constant or the output of an earlier node; every node kept is needed by some target; normalised ids are distinct exactly when the original ids are.", "quantifier": "every recorded program and every choice of targets", "why_tests_cant": "program DAGs are unbounded", "anchors": ["crates/hodu_core/src/snapshot/capture/board.rs", "crates/hodu_core/src/snapshot.rs"]}
{"id": "C44", "title": "Replaying a snapshot gives the eager result", "statement": "Evaluating the pruned snapshot on given inputs produces for every target the same value as evaluating the whole recorded program.", "quantifier": "every recorded program, target choice and interpretation of the operations", "why_tests_cant": "dead-code removal must be right for all DAGs", "anchors": ["crates/hodu_core/src/snapshot/capture/board.rs"]}
{"id": "C45", "title": "Symbolic shapes agree with the concrete ones after resolution", "statement": "Resolving a symbolic layout whose dimensions are concrete (or resolved) gives the same shape, strides and offset as building the layout concretely; upper bounds dominate every resolution within the declared bounds.", "quantifier": "all symbolic shapes, offsets and resolutions", "why_tests_cant": "offsets other than 0 are the exception", "anchors": ["crates/hodu_core/src/types/symbolic_shape.rs", "crates/hodu_core/src/types/symbolic_layout.rs"]}
{"id": "C46", "title": "Dynamic dimension resolution is last-write-wins per id and isolated by clear", "statement": "After any history, looking up a dimension id yields the value of the last resolve for that id since the last clear, or nothing; fresh ids are distinct from all earlier ones (below the counter's wrap-around).", "quantifier": "every history of resolve/clear/new operations", "why_tests_cant": "histories unbounded", "anchors": ["crates/hodu_core/src/types/dynamic_registry.rs", "crates/hodu_core/src/types/dim.rs"]}
{"id": "C47", "title": "Shuffling is a permutation for every random source", "statement": "Whatever numbers the generator returns (within its contract), shuffling rearranges the indices without losing or duplicating any, and every permutation is reachable.", "quantifier": "every list length and every random stream", "why_tests_cant": "cannot enumerate random streams", "anchors": ["crates/hodu_datasets/src/data/dataloader.rs:shuffle_indices", "crates/hodu_datasets/src/data/sampler.rs:RandomSampler"]}
{"id": "C48", "title": "One epoch visits every sample exactly once", "statement": "Iterating a data loader to the end yields batches whose index lists concatenate to a permutation of all dataset indices (drop_last=false) or a prefix of it of length bs*floor(n/bs) (drop_last=true); the number of batches is num_batches(); all batches but the last are full; iteration terminates.", "quantifier": "every dataset length, batch size >= 1, shuffle setting and random stream", "why_tests_cant": "all length/batch-size combinations", "anchors": ["crates/hodu_datasets/src/data/dataloader.rs:DataLoader"]}
{"id": "C49", "title": "A batch contains the rows of its indices", "statement": "For a tensor dataset the j-th row of a collated batch is the dataset row whose index is the j-th index of the batch.", "quantifier": "every dataset tensor, batch size and index order", "why_tests_cant": "batch size 1 and identical rows hide the error", "anchors": ["crates/hodu_datasets/src/data/dataset.rs:TensorDataset::get", "crates/hodu_datasets/src/data/dataloader.rs:default_collate", "crates/hodu_core/src/tensor/ops/concat_split.rs:Tensor::stack"]}
{"id": "C50", "title": "Concatenated and split datasets partition their samples", "statement": "Index k of a concatenated dataset is sample k - (sum of preceding lengths) of the unique dataset owning it, out-of-range indices are refused; random_split yields two subsets whose index sets are disjoint and cover the dataset; batch samplers partition the sampled indices.", "quantifier": "all lists of dataset lengths, indices, split ratios in [0,1], random streams", "why_tests_cant": "boundary indices of every cumulative sum", "anchors": ["crates/hodu_datasets/src/data/dataset.rs", "crates/hodu_datasets/src/data/sampler.rs"]}
{"id": "C51", "title": "Optimizer updates follow their published recursion", "statement": "After any number of steps with any gradients, SGD, AdamW, Adagrad and RMSprop parameters equal the documented closed recursion of the method (bias-corrected moments for AdamW, decoupled weight decay).", "quantifier": "every step count, gradient history and hyper-parameters", "why_tests_cant": "step histories are unbounded", "anchors": ["crates/hodu_nn/src/optimizers/sgd.rs", "crates/hodu_nn/src/optimizers/adam.rs", "crates/hodu_nn/src/optimizers/adagrad.rs", "crates/hodu_nn/src/optimizers/rmsprop.rs"]}
{"id": "C52", "title": "Adam follows the published Adam recursion", "statement": "After t steps Adam's update is lr * mhat/(sqrt(vhat)+eps) with mhat = m/(1-beta1^t), vhat = v/(1-beta2^t).", "quantifier": "every step count, gradients, hyper-parameters", "why_tests_cant": "the deviation shrinks with t and looks like ordinary training noise", "anchors": ["crates/hodu_nn/src/optimizers/adam.rs:Adam::step"]}
{"id": "C53", "title": "The plugin registry is a map by name", "statement": "After any history of upsert/remove/enable/disable, at most one entry has a given name; find returns the last upserted entry (with the last enabled flag); removing makes it unfindable; other plugins are untouched; lookups by extension/device only return enabled plugins that declare it.", "quantifier": "every operation history", "why_tests_cant": "histories unbounded", "anchors": ["crates/hodu_plugin_runtime/src/registry.rs:PluginRegistry"]}
{"id": "C54", "title": "Saving the plugin registry is atomic", "statement": "At every moment - at a crash at any point of save, or for a concurrent reader - the registry file holds either the complete old or the complete new registry.", "quantifier": "every crash point and interleaving with readers", "why_tests_cant": "needs a crash or a reader between two system calls", "anchors": ["crates/hodu_plugin_runtime/src/registry.rs:PluginRegistry::save", "crates/hodu_plugin_runtime/src/registry.rs:PluginRegistry::load"]}
{"id": "C55", "title": "An RPC call only returns the answer to its own request", "statement": "A successful plugin call returns the result carried by a response with the id of that very request; ids are never reused; notifications never end a call.", "quantifier": "every stream of messages from the plugin and every call history", "why_tests_cant": "message interleavings unbounded", "anchors": ["crates/hodu_plugin_runtime/src/client.rs:PluginClient::call", "crates/hodu_plugin/src/rpc.rs"]}
{"id": "C56", "title": "The RPC connection recovers after a timeout or a cancel", "statement": "After a call timed out or was cancelled, later calls to a plugin that answers every request eventually succeed.", "quantifier": "every history containing a timeout or cancel", "why_tests_cant": "the desynchronisation shows up only on later calls", "anchors": ["crates/hodu_plugin_runtime/src/client.rs:PluginClient::call", "crates/hodu_plugin_runtime/src/client.rs:CancellationHandle::cancel", "hodu-plugin-sdk/src/server.rs:PluginServer::handle_message"]}
{"id": "C57", "title": "The plugin server answers each request exactly once, in order, after initialisation", "statement": "For every sequence of lines received, the server emits exactly one response per non-empty line up to a shutdown request, in order, carrying the request's id; handlers run only after a successful initialize, and initialize succeeds at most once.", "quantifier": "every message sequence and every set of handlers", "why_tests_cant": "sequences unbounded", "anchors": ["hodu-plugin-sdk/src/server.rs:PluginServer"]}
{"id": "C58", "title": "Protocol compatibility is a sensible relation", "statement": "Version compatibility is reflexive and symmetric on well-formed versions, equals equality of major (and of minor below 1.0), is transitive, and malformed version strings are never compatible.", "quantifier": "every pair of version strings", "why_tests_cant": "all strings", "anchors": ["crates/hodu_plugin_runtime/src/client.rs:is_protocol_compatible"]}
{"id": "C59", "title": "Command-line device names are normalised", "statement": "parse_device is idempotent on its successful outputs, is insensitive to letter case, and cuda:N, cuda::N with the same N denote the same device.", "quantifier": "every string", "why_tests_cant": "all strings", "anchors": ["hodu-cli/src/commands/run.rs:parse_device", "crates/hodu_plugin/src/backend.rs:parse_device_id"]}
{"id": "C60", "title": "Host patterns", "statement": "host_matches_pattern agrees with glob matching for patterns with at most one star at either end.", "quantifier": "every host and pattern string", "why_tests_cant": "all strings", "anchors": ["hodu-plugin-sdk/src/backend.rs:host_matches_pattern"]}
{"id": "C61", "title": "run accepts inputs exactly when they cover the model's inputs", "statement": "Input parsing succeeds exactly when every argument has the form name=path naming a model input with a loadable tensor of the right shape and dtype, and every model input is given; with repeated names the last one wins.", "quantifier": "every argument list and model signature", "why_tests_cant": "argument lists unbounded", "anchors": ["hodu-cli/src/commands/run.rs:parse_inputs", "hodu-cli/src/tensor/loader.rs"]}
{"id": "C62", "title": "The kernel-name cache is transparent", "statement": "Under any interleaving of lookups by any number of threads, each lookup returns the string it asked for, and equal strings always get the same shared copy.", "quantifier": "every interleaving", "why_tests_cant": "schedules unbounded", "anchors": ["crates/hodu_core/src/cache/kernel.rs"]}
{"id": "C63", "title": "Scatter writes and accumulates at the named positions", "statement": "scatter_add adds every source element once at its destination and leaves all other positions untouched; the order of updates does not matter; scatter keeps the last write for each destination.", "quantifier": "every shape, axis, index tensor (with duplicates), source", "why_tests_cant": "duplicate patterns unbounded", "anchors": ["crates/hodu_cpu_kernels/kernels/ops_indexing.c", "crates/hodu_core/src/tensor/ops/indexing.rs:Tensor::scatter_add"]}
{"id": "C64", "title": "index_put writes the named slices", "statement": "index_put(dim, idx, values) replaces slice idx[j] along dim by slice j of values and keeps everything else.", "quantifier": "every shape, axis, index vector", "why_tests_cant": "kernel and metadata layouts must agree for all ranks", "anchors": ["crates/hodu_core/src/tensor/ops/indexing.rs:Tensor::index_put", "crates/hodu_core/src/op_metadatas.rs:index_put_metadata", "crates/hodu_cpu_kernels/kernels/ops_indexing.c"]}
{"id": "C65", "title": "argmax/argmin return the index of the extremum", "statement": "argmax(dim) holds at every output index the first position along dim of a maximal element of the fibre, as an integer readable from the result tensor.", "quantifier": "every shape, strided view, axis, keep_dim flag, dtype", "why_tests_cant": "the kernel's int32 output only fits some dtypes' buffers", "anchors": ["crates/hodu_cpu_kernels/kernels/ops_reduce.c", "crates/hodu_core/src/be_cpu/storage/ops_reduce.rs", "crates/hodu_core/src/tensor/ops/reduce.rs:Tensor::argmax"]}
{"id": "C66", "title": "any/all return the truth value of the fibre", "statement": "any(dims) is true at an output index exactly when some element of its fibre is nonzero (all: every element), for every dtype.", "quantifier": "every shape, strided view, set of axes, dtype", "why_tests_cant": "the kernel's bool output only fits some dtypes' buffers", "anchors": ["crates/hodu_cpu_kernels/kernels/ops_reduce.c", "crates/hodu_core/src/be_cpu/storage/ops_reduce.rs", "crates/hodu_core/src/tensor/ops/reduce.rs:Tensor::any"]}
{"id": "C73", "title": "A handler's result reaches the caller", "statement": "When a plugin handler returns a value, the client's call returns exactly that value (decoded); when it returns an error, the call fails with that error.", "quantifier": "every handler, method, parameters and returned value", "why_tests_cant": "depends on every possible returned JSON value, including null", "anchors": ["crates/hodu_plugin_runtime/src/client.rs:PluginClient::call", "crates/hodu_plugin/src/rpc.rs:Response", "hodu-plugin-sdk/src/server.rs:PluginServer::method"]}
{"id": "C74", "title": "An optimizer step is all or nothing", "statement": "A step that returns Ok has updated every parameter passed to it; a step that fails has changed no parameter and no optimizer state.", "quantifier": "every parameter list, gradient presence, optimizer state", "why_tests_cant": "needs parameters without gradients or parameters added between steps in every position", "anchors": ["crates/hodu_nn/src/optimizers/sgd.rs", "crates/hodu_nn/src/optimizers/adam.rs", "crates/hodu_nn/src/optimizers/adagrad.rs", "crates/hodu_nn/src/optimizers/rmsprop.rs"]}
{"id": "C75", "title": "Optimizers follow their documentation under a learning-rate schedule", "statement": "When set_learning_rate is called between steps, the parameters still follow the recursion documented on the optimizer's struct.", "quantifier": "every step count, gradients, hyper-parameters and learning-rate schedule", "why_tests_cant": "tests keep the learning rate fixed, where both readings of the momentum recursion agree", "anchors": ["crates/hodu_nn/src/optimizers/rmsprop.rs"]}
{"id": "C78", "title": "Optimizer calls leave recording enabled", "statement": "After an optimizer's step() or zero_grad() returns, with success or error, operations are recorded for gradients as before the call.", "quantifier": "every state, every sequence of per-parameter outcomes", "why_tests_cant": "the failing parameter may be any of them and the effect shows only later, as missing gradients", "anchors": ["crates/hodu_nn/macros/src/derive.rs:derive_optimizer_impl", "crates/hodu_core/src/tensor/gradient/compute.rs:record_operation"]}
{"id": "C79", "title": "A failing backward() changes no gradient", "statement": "If backward() returns an error, every tensor's stored gradient is what it was before the call.", "quantifier": "every tape, failure at any entry", "why_tests_cant": "error paths at every tape position", "anchors": ["crates/hodu_core/src/tensor/gradient/compute.rs:compute_gradients"]}
{"id": "C80", "title": "backward() on one loss does not invalidate another", "statement": "Two losses built from shared tensors can both be differentiated, one after the other: the second backward() yields the second loss' gradients.", "quantifier": "every pair of losses and every tape", "why_tests_cant": "needs the general statement about what the first call discards", "anchors": ["crates/hodu_core/src/tensor/gradient/compute.rs:compute_gradients", "crates/hodu_core/src/tensor/gradient/tape.rs:clear_tape_for_context"]}
{"id": "C81", "title": "Dropping a gradient context ends that context and no other", "statement": "After a GradientContext is dropped, operations are recorded in the youngest context still alive, whatever the order in which contexts are dropped.", "quantifier": "every interleaving of creating and dropping contexts", "why_tests_cant": "interleavings are unbounded", "anchors": ["crates/hodu_core/src/tensor/gradient/context.rs", "crates/hodu_core/src/tensor/gradient/core.rs"]}
{"id": "C82", "title": "Every operation with a scalar runs on the CPU", "statement": "Each public tensor-with-scalar operation (add, sub, mul, div, rem, pow, maximum, minimum, leaky_relu, elu, prelu) evaluates on a CPU tensor without panicking.", "quantifier": "every operation, scalar and element", "why_tests_cant": "the dispatch list must be compared with the whole operation list", "anchors": ["crates/hodu_cpu_kernels/src/kernels/ops_unary.rs", "crates/hodu_core/src/be_cpu/storage/ops_unary.rs"]}
{"id": "C84", "title": "Gradient of reshape, flatten, squeeze and unsqueeze is the inverse re-indexing", "statement": "The gradient of x through a reshape-like operation has x's shape, and its entry at i is the incoming gradient at the result index that shows x[i].", "quantifier": "every shape, every strided incoming gradient and every reshape-like operation", "why_tests_cant": "the incoming gradient may have any strides", "anchors": ["crates/hodu_core/src/tensor/gradient/vjp_shape.rs"]}
{"id": "C85", "title": "Gradient of a broadcast operand is the sum over its copies", "statement": "When x is broadcast (explicitly or by a binary operation), the gradient of x has x's shape and its entry at i is the sum of the incoming gradients at all indices showing x[i].", "quantifier": "every pair of broadcast-compatible shapes and every incoming gradient", "why_tests_cant": "unboundedly many shape pairs, added axes and stretched axes mixed", "anchors": ["crates/hodu_core/src/tensor/gradient/vjp_shape.rs", "crates/hodu_core/src/tensor/ops/reduce.rs:sum_to_shape"]}
{"id": "C69", "title": "onehot marks exactly the class of each index", "statement": "For an index tensor t and any axis in range, onehot(t, classes, axis) has t's shape with the class axis inserted, and its entry at (i, c) is 1 when t[i] (counted from the end when negative) is c and 0 otherwise.", "quantifier": "every index tensor and view, every class count and axis", "why_tests_cant": "unboundedly many shapes, axes and views", "anchors": ["crates/hodu_cpu_kernels/kernels/ops_indexing.c:895", "crates/hodu_core/src/tensor/ops/indexing.rs:onehot"]}
{"id": "C70", "title": "nonzero lists the indices of the non-zero elements", "statement": "nonzero(t) has shape [n, rank] where n is the number of non-zero elements, and its rows are their indices in row-major order.", "quantifier": "every tensor and view of every rank", "why_tests_cant": "unboundedly many shapes and strides", "anchors": ["crates/hodu_cpu_kernels/kernels/ops_indexing.c:1004", "crates/hodu_core/src/tensor/ops/indexing.rs:nonzero"]}
{"id": "C71", "title": "unique returns sorted values, a correct inverse and correct counts", "statement": "unique(t) returns values in strictly increasing order, all occurring in t; inverse[i] names the value equal to t[i]; counts[r] is the number of elements equal to values[r].", "quantifier": "every tensor and view, every element type with a total order, every library sort meeting the qsort contract", "why_tests_cant": "unboundedly many inputs; the order of equal elements after qsort is unspecified", "anchors": ["crates/hodu_cpu_kernels/kernels/ops_indexing.c:1157", "crates/hodu_core/src/tensor/ops/indexing.rs:unique"]}
{"id": "C72", "title": "compress keeps exactly the selected elements or slices", "statement": "compress(t, cond) without an axis is the 1-D tensor of the elements of flattened t at which cond holds; with an axis it is t restricted to the positions of that axis at which cond holds, in order.", "quantifier": "every tensor and view, every condition, every axis", "why_tests_cant": "unboundedly many shapes, conditions and views", "anchors": ["crates/hodu_cpu_kernels/kernels/ops_indexing.c:1342", "crates/hodu_core/src/tensor/ops/indexing.rs:compress"]}
{"id": "C86", "title": "conv1d, conv2d and conv3d compute the zero-padded cross-correlation", "statement": "For an input [B, Ci, spatial] and a weight [Co, Ci, kernel], element [b, oc, o] of the convolution with stride s, padding p and dilation d is the sum of input[b, ic, i] * weight[oc, ic, k] over all ic, k, i with i + p = o*s + k*d on every axis; the output has one element per window that fits in the padded input. Wrong ranks and channel counts are answered with an error.", "quantifier": "every input, weight and view, every number of spatial axes, stride, padding and dilation, every element type including the BLAS path of f32/f64", "why_tests_cant": "unboundedly many shapes, parameters and memory layouts", "anchors": ["crates/hodu_cpu_kernels/kernels/ops_conv.c:40", "crates/hodu_core/src/tensor/ops/conv.rs", "crates/hodu_core/src/op_metadatas.rs:1036"]}
{"id": "C87", "title": "Transposed convolutions scatter the input through the kernel", "statement": "For an input [B, Ci, spatial] and a weight documented as [Co, Ci, kernel], element [b, oc, o] of the transposed convolution is the sum of input[b, ic, i] * weight[oc, ic, k] over all ic, i, k with o + p = i*s + k*d; its length is (n-1)*s - 2p + d*(k-1) + output_padding + 1.", "quantifier": "every input and weight, every number of spatial axes, stride, padding, output padding and dilation", "why_tests_cant": "unboundedly many shapes and parameters", "anchors": ["crates/hodu_cpu_kernels/kernels/ops_conv.c:560", "crates/hodu_core/src/tensor/ops/conv.rs"]}
{"id": "C88", "title": "Backward rules of convolutions are their adjoints", "statement": "For a convolution (or transposed convolution) y of x by w and a gradient g of y, backward gives gx and gw of the shapes of x and w such that <g, conv(x', w)> = <gx, x'> for every x' and <g, conv(x, w')> = <gw, w'> for every w'.", "quantifier": "every input, weight and output gradient (including broadcast views), every number of axes, stride, padding and dilation", "why_tests_cant": "an identity between sums over all inputs, for unboundedly many shapes", "anchors": ["crates/hodu_core/src/tensor/gradient/vjp_conv.rs", "crates/hodu_cpu_kernels/kernels/ops_conv.c:1352"]}
{"id": "C89", "title": "resize never reads outside its input, and nearest takes the element of the rounded source coordinate", "statement": "For a 4-D or 5-D tensor and any output size, resize returns a tensor of shape [N, C, size] without reading outside the input. In nearest mode element o is the input element at the source coordinate of o, rounded as requested and moved to the edge when outside. Other ranks and sizes are errors.", "quantifier": "every tensor and view, every size, coordinate transform and rounding", "why_tests_cant": "unboundedly many sizes, views and coordinates", "anchors": ["crates/hodu_cpu_kernels/kernels/ops_resize.c:17", "crates/hodu_core/src/tensor/ops/resize.rs"]}
{"id": "C90", "title": "Linear and cubic resize interpolate", "statement": "In linear (cubic) mode every element is the axis-by-axis linear (Catmull-Rom) interpolation of the edge-extended input at its source coordinate; resizing to the same size is the identity; linear interpolation does not leave the range of the input.", "quantifier": "every tensor and view of rank 4 or 5, every size and coordinate transform, every float type", "why_tests_cant": "unboundedly many sizes and values", "anchors": ["crates/hodu_cpu_kernels/kernels/ops_resize.c:134", "crates/hodu_cpu_kernels/kernels/ops_resize.c:211"]}
{"id": "C91", "title": "The backward rule of resize is its adjoint", "statement": "For y = resize(x) and a gradient g of y, backward gives gx of the shape of x with <g, resize(x')> = <gx, x'> for every x'.", "quantifier": "every input and gradient, every size and mode", "why_tests_cant": "an identity between sums over all inputs, for unboundedly many sizes", "anchors": ["crates/hodu_core/src/tensor/gradient/vjp_resize.rs"]}
{"id": "C92", "title": "softmax is a probability distribution along its axis", "statement": "For a float tensor without +infinity or NaN and no line of which is -infinity throughout, softmax along an axis returns a tensor of the same shape with entries exp(x_i)/sum_k exp(x_k): each between 0 and 1, summing to 1 along the axis, unchanged when a constant is added to a line. An axis out of range is an error.", "quantifier": "every float tensor and view, every axis, every rank", "why_tests_cant": "a statement about all real inputs, shapes and axes", "anchors": ["crates/hodu_core/src/tensor/ops/normalization.rs"]}
{"id": "C93", "title": "log-softmax, negative log likelihood and cross entropy", "statement": "log_softmax is x - ln(sum exp x) along its axis. NLL with class axis dim is the mean over positions of -log_probs at the target class; cross entropy is the mean of -ln softmax at the target class.", "quantifier": "every tensor, every class axis, all targets in range", "why_tests_cant": "a statement about all real inputs, shapes and class axes", "anchors": ["crates/hodu_nn/src/losses/nll.rs", "crates/hodu_nn/src/losses/cross_entropy.rs"]}
{"id": "C94", "title": "The regression losses compute their formulas", "statement": "MSE is the mean of squared differences; MAE the mean of absolute differences; Huber, smooth L1 and cosine embedding losses return their formulas.", "quantifier": "every prediction and target of broadcastable shapes and any float dtype", "why_tests_cant": "a statement about all real inputs and shapes", "anchors": ["crates/hodu_nn/src/losses/mse.rs", "crates/hodu_nn/src/losses/mae.rs", "crates/hodu_nn/src/losses/huber.rs"]}
{"id": "C95", "title": "Binary cross entropy and KL divergence compute their formulas", "statement": "BCE is the mean of -(t ln p + (1-t) ln(1-p)); BCE with logits the same of the logistic function of the logits; the KL divergence is the sum of t (ln t - input), with 0 ln 0 = 0, over the batch size, and of exp(t) (t - input) for log targets.", "quantifier": "every prediction and target, any float dtype", "why_tests_cant": "a statement about all real inputs and shapes", "anchors": ["crates/hodu_nn/src/losses/binary_cross_entropy.rs", "crates/hodu_nn/src/losses/kl_div.rs"]}
{"id": "C96", "title": "Linear computes x W^T + b", "statement": "Linear with weight [out; in] and optional bias, given an input whose last axis has size in, returns the tensor with last axis out whose entry at (i, j) is sum_k x(i,k) W(j,k) + b(j), for any number of leading axes, with or without BLAS.", "quantifier": "every weight, bias and input of numbers (not bool), every rank, every memory layout", "why_tests_cant": "a statement about all real inputs, shapes, layouts and thread schedules", "anchors": ["crates/hodu_nn/src/modules/linear.rs"]}
{"id": "C97", "title": "RNN, LSTM and GRU compute their recurrences", "statement": "On float tensors without an empty axis that are not contiguous views inside a larger storage, one step of each cell is the documented formula, h' = act(W_ih x + b_ih + W_hh h + b_hh), the four-gate LSTM update and the GRU update (1-z) n + z h; a stack of layers over a sequence, batch first or not, from a given or zero state, returns the last layer's output at every time and every layer's final state.", "quantifier": "all weights, inputs, initial states, sequence lengths, batch sizes and numbers of layers", "why_tests_cant": "a statement about all real inputs, sizes and numbers of steps and layers", "anchors": ["crates/hodu_nn/src/modules/rnn.rs"]}
{"id": "C98", "title": "LayerNorm, RMSNorm, GroupNorm and InstanceNorm standardise the right entries", "statement": "On float tensors without an empty axis that are not contiguous views inside a larger storage, and eps > 0, each layer returns (x - mean) / sqrt(var + eps) * gamma + beta (RMSNorm: x / sqrt(mean(x^2) + eps) * gamma), where mean and biased variance range over the entries sharing the leading coordinates (LayerNorm, RMSNorm), the sample and channel (InstanceNorm), the sample and group of channels (GroupNorm), and the parameters belong to the trailing coordinates or to the channel; a trailing shape that does not match is an error; what is normalised together has mean 0.", "quantifier": "all inputs, parameters, eps > 0, shapes up to rank 16, numbers of groups and channels", "why_tests_cant": "a statement about all real inputs, shapes and layouts", "anchors": ["crates/hodu_nn/src/modules/norm.rs"]}
{"id": "C83", "title": "BatchNorm: batch statistics in training, running statistics in evaluation", "statement": "BatchNorm1D/2D/3D standardise each channel (axis 1): in training with the mean and biased variance of the batch, moving the running statistics to momentum * old + (1 - momentum) * batch; in evaluation with the running statistics, which stay; input of any other rank is an error in both modes.", "quantifier": "all inputs, parameters, running statistics, momentum and eps, in both modes", "why_tests_cant": "a statement about all real inputs and states", "anchors": ["crates/hodu_nn/src/modules/norm.rs"]}
{"id": "C68", "title": "Dropout zeroes entries with probability p and rescales the others", "statement": "In training, dropout multiplies entry i by 1/(1-p) if its uniform draw exceeds p and by 0 otherwise, for every float dtype and every p in [0,1]: p = 0 keeps everything and p = 1 gives zeros; in evaluation it is the identity.", "quantifier": "all inputs, probabilities and sequences of random draws", "why_tests_cant": "a statement about all inputs and all outcomes of the random generator", "anchors": ["crates/hodu_nn/src/modules/dropout.rs"]}
{"id": "C99", "title": "Scaled dot-product attention", "statement": "For float tensors with any leading batch axes, scaled_dot_product_attention returns softmax(Q K^T / sqrt(k)) V in each batch: the weights of a query are positive and sum to 1, so without dropout each result lies between the smallest and the largest value; masked keys and, in causal attention, later keys get weight 0.", "quantifier": "all inputs, masks, batch shapes, numbers of queries and keys, and sizes", "why_tests_cant": "a statement about all real inputs and all batch shapes", "anchors": ["crates/hodu_nn/src/modules/attention.rs"]}
{"id": "C77", "title": "Multi-head attention computes every head independently for every sample", "statement": "MultiheadAttention projects queries, keys and values, lets head h of sample b attend with columns h*D .. h*D+D-1 of sample b alone, puts the heads side by side and projects the result.", "quantifier": "all weights, inputs, numbers of samples, heads and positions, and head sizes", "why_tests_cant": "a statement about all real inputs and sizes", "anchors": ["crates/hodu_nn/src/modules/attention.rs"]}
{"id": "C67", "title": "An embedding layer looks up the row of every index", "statement": "For every index tensor the result has its shape with the row length appended, and each position holds the row of the weight that its index names; an index naming no row is an error. With max_norm a row longer than it is scaled down to that length, for every row length; with padding_idx the padding positions hold zeros.", "quantifier": "all weights, index tensors of any shape and layout, row lengths, maximal norms and padding indices", "why_tests_cant": "a statement about all real weights, all shapes and all indices", "anchors": ["crates/hodu_nn/src/modules/embedding.rs"]}
{"id": "C76", "title": "Pooling layers compute the means and maxima of their windows", "statement": "For any number of spatial axes: AvgPool gives the sum over each window divided by the window size (padding counts as 0), MaxPool the largest entry of each window; adaptive pooling to any positive output size reduces the positions from floor(p L / o) up to ceil((p+1) L / o); global pooling reduces the whole channel; fractional max pooling reduces consecutive blocks that partition each axis. Inputs of another rank are errors.", "quantifier": "all inputs, batch sizes, channels, numbers and lengths of spatial axes, kernels, strides, paddings and output sizes", "why_tests_cant": "a statement about all real inputs and all sizes", "anchors": ["crates/hodu_nn/src/modules/pooling.rs", "crates/hodu_core/src/tensor/ops/windowing.rs"]}
{"id": "C100", "title": "The determinant of every square matrix", "statement": "det gives the determinant of every matrix of a stack of square matrices, of any size and in any element type; an input that is no stack of square matrices is an error.", "quantifier": "all stacks of square matrices, sizes, batch axes, layouts and element types", "why_tests_cant": "a statement about all real matrices of all sizes", "anchors": ["crates/hodu_core/src/tensor/ops/linalg.rs", "crates/hodu_cpu_kernels/kernels/ops_linalg.c"]}
{"id": "C101", "title": "The inverse and the solution of linear equations", "statement": "inv gives the inverse of every nonsingular matrix of a stack and no finite number for a singular one; solve gives X with A X = b for right-hand sides [..., N] and [..., N, K].", "quantifier": "all stacks of square matrices and right-hand sides, sizes, layouts and element types", "why_tests_cant": "a statement about all real matrices of all sizes", "anchors": ["crates/hodu_core/src/tensor/ops/linalg.rs", "crates/hodu_cpu_kernels/kernels/ops_linalg.c"]}
{"id": "C102", "title": "The trace is the sum of the diagonal", "statement": "trace gives the sum of the diagonal of every matrix of a stack, also of an empty one.", "quantifier": "all stacks of square matrices, sizes, batch axes and layouts", "why_tests_cant": "a statement about all real matrices of all sizes", "anchors": ["crates/hodu_core/src/tensor/ops/linalg.rs", "crates/hodu_cpu_kernels/kernels/ops_linalg.c"]}
{"id": "C103", "title": "The gradients of determinant, inverse and trace are their derivatives", "statement": "For every matrix of a stack, the gradient that the rules of det, inv and trace give to entry (i, j) is the derivative of the output, paired with the incoming gradient, along that entry; it has the shape of the input.", "quantifier": "all stacks of square matrices and incoming gradients, sizes, batch axes and layouts", "why_tests_cant": "a statement about all real matrices of all sizes", "anchors": ["crates/hodu_core/src/tensor/gradient/vjp_linalg.rs"]}
{"id": "C104", "title": "The gradients of matrix products are their derivatives", "statement": "For every product of matrices or of broadcast stacks of matrices, the gradient the rule of matmul (or dot) gives to an entry of an operand is the derivative of the product, paired with the incoming gradient, along that entry; it has the shape of the operand.", "quantifier": "all operands, incoming gradients, sizes, batch axes, broadcasts and layouts", "why_tests_cant": "a statement about all real matrices of all sizes", "anchors": ["crates/hodu_core/src/tensor/gradient/vjp_matrix.rs", "crates/hodu_core/src/tensor/gradient/vjp_utils.rs", "crates/hodu_core/src/tensor/ops/matrix.rs"]}
{"id": "C105", "title": "Every tensor a result is computed from receives its gradient", "statement": "After a forward computation of views, elementwise operations, broadcast binary operations and matrix products, backward() of a result gives a gradient to every tensor requiring one that the result is computed from.", "quantifier": "all computations, tensors and rules", "why_tests_cant": "a statement about all programs", "anchors": ["crates/hodu_core/src/tensor/ops/shape.rs", "crates/hodu_core/src/tensor/ops/cast_memory.rs", "crates/hodu_core/src/tensor/ops/matrix.rs", "crates/hodu_core/src/tensor/ops/binary.rs", "crates/hodu_core/src/tensor/gradient/compute.rs"]}
{"id": "C106", "title": "Gradients of concat, split, flip and cumsum", "statement": "The gradient rules of concat, split, flip and cumsum return the adjoint of the operation applied to the incoming gradient: gradients in the shapes of the inputs whose inner product with any inputs is that of the incoming gradient with the result.", "quantifier": "all shapes, axes, pieces, inputs and gradients", "why_tests_cant": "tests use a few shapes, contiguous gradients and non-negative axes", "anchors": ["crates/hodu_core/src/tensor/gradient/vjp_concat_split.rs", "crates/hodu_core/src/tensor/gradient/vjp_scan.rs", "crates/hodu_core/src/tensor/gradient/vjp_shape_memory.rs", "crates/hodu_core/src/tensor/ops/concat_split.rs"]}
{"id": "C107", "title": "Gradients of indexing, topk and slice", "statement": "The gradient rules of gather, index_select, index_put, scatter, scatter_add, scatter_max, scatter_min, topk and slice return the adjoint of the operation (at the positions it selects) applied to the incoming gradient, in the shapes of the inputs.", "quantifier": "all shapes, axes, index tensors, inputs and gradients", "why_tests_cant": "tests use a few shapes; repeated indices, other axes and negative axes are combinations they miss", "anchors": ["crates/hodu_core/src/tensor/gradient/vjp_indexing.rs", "crates/hodu_core/src/tensor/gradient/vjp_sort.rs", "crates/hodu_core/src/tensor/gradient/vjp_shape.rs", "crates/hodu_core/src/tensor/ops/indexing.rs"]}
{"id": "C108", "title": "Reductions prod, var, std, norm, logsum, logsumexp, max and min", "statement": "For every layout, list of axes and keep_dim, prod, var, std, norm, logsum, logsumexp, max and min return, at every index of the reduced shape, the product, variance, standard deviation, p-norm, log of the sum, log of the sum of exponentials, largest and smallest of the elements along the reduced axes.", "quantifier": "all shapes, layouts, axes, element values and exponents p", "why_tests_cant": "tests use p = 1 and 2, finite rows and rows whose variance is well away from zero", "anchors": ["crates/hodu_cpu_kernels/kernels/ops_reduce.c", "crates/hodu_core/src/tensor/ops/reduce.rs", "crates/hodu_cpu_kernels/kernels/math_utils.h"]}
{"id": "C109", "title": "Gradients of the reductions", "statement": "The gradient rules of prod, norm, var, std, max, min, logsum and logsumexp return, at every entry of the operand, the derivative of the sum of the incoming gradient times the result, for every list of reduced axes and keep_dim.", "quantifier": "all shapes, axes, keep_dim, operands and gradients at which the reduction is differentiable", "why_tests_cant": "tests reduce everything or the first axis, and avoid zeros, ties and inner axes", "anchors": ["crates/hodu_core/src/tensor/gradient/vjp_reduce.rs", "crates/hodu_core/src/tensor/ops/reduce.rs"]}
{"id": "C110", "title": "The vectorised loops compute what the scalar loops compute", "statement": "On every vector unit and for every layout, the f32 and f64 kernels of neg, abs, square, sqrt, relu, add, sub, mul, div, sum, max, min, var and norm with vector instructions write the elements the scalar loops write: no element is skipped, read twice or read outside the storage, whatever the number of elements left over.", "quantifier": "all lane counts, tensor sizes, layouts, reduced axes and elements", "why_tests_cant": "tests run on one vector unit with a few sizes, and compare up to a tolerance that hides lost low-order terms", "anchors": ["crates/hodu_cpu_kernels/kernels/simd_utils.h", "crates/hodu_cpu_kernels/kernels/ops_reduce.c", "crates/hodu_cpu_kernels/kernels/ops_unary.c", "crates/hodu_cpu_kernels/kernels/ops_binary.c"]}
{"id": "C111", "title": "The gradient of padding is the adjoint of padding", "statement": "For the four padding modes, the gradient rule applied to an incoming gradient g returns gx, of the shape of the operand, such that the inner product of g with the padded operand is that of gx with the operand, up to the share of the padding constant, which does not depend on the operand.", "quantifier": "all ranks, shapes, amounts of padding, incoming gradients and operands", "why_tests_cant": "tests pad a few small tensors along one axis; the rule is wrong only where the sliced gradient starts inside its storage, where two axes are padded, or where the padding exceeds the axis", "anchors": ["crates/hodu_core/src/tensor/gradient/vjp_padding.rs", "crates/hodu_cpu_kernels/kernels/ops_padding.c", "crates/hodu_core/src/tensor/ops/padding.rs"]}
{"id": "C112", "title": "The gradient rules of the window reductions are right", "statement": "For the window sum and mean, the gradient rule applied to an incoming gradient g returns gx, of the shape of the operand, such that the inner product of g with the result is that of gx with the operand; for max and min, gx is the derivative of the sum of the outputs weighted by g in each entry of the operand, where no window attains its result twice.", "quantifier": "all ranks, shapes, windows, strides, paddings, incoming gradients and operands", "why_tests_cant": "the tests pool with windows equal to their stride that divide the operand; with overlapping, spaced or padded windows the rule fails or gives wrong gradients, and on ties every entry gets the whole gradient", "anchors": ["crates/hodu_core/src/tensor/gradient/vjp_windowing.rs", "crates/hodu_cpu_kernels/kernels/ops_windowing.c", "crates/hodu_core/src/tensor/ops/windowing.rs"]}
{"id": "C113", "title": "The gradient rule of einsum is the adjoint of the contraction", "statement": "For an einsum of operands with an equation, the rule applied to an incoming gradient g returns for each operand i a gradient gx of its shape such that the inner product of g with the result is that of gx with operand i, the other operands being fixed.", "quantifier": "all equations, numbers of operands, ranks, shapes, operands and incoming gradients", "why_tests_cant": "the equation text, the number of operands and the shapes are unbounded; a sum over a label of one operand has no gradient, a repeated label gets a wrong one, and a single operand's gradient does not depend on the incoming one", "anchors": ["crates/hodu_core/src/tensor/gradient/vjp_einsum.rs", "crates/hodu_core/src/einsum.rs", "crates/hodu_core/src/tensor/ops/einsum.rs", "crates/hodu_cpu_kernels/kernels/ops_einsum.c"]}
{"id": "C114", "title": "The 16- and 8-bit floats are read and written by their formats", "statement": "In the CPU kernels every code of bf16, f16, f8e4m3 and f8e5m2 is read as the number it stands for and written back unchanged, and writing a float gives a nearest number of the format, with infinities and NaN kept.", "quantifier": "all codes of each format and all binary32 floats", "why_tests_cant": "the tests compare a few values such as 1.0 and 2.5 within a tolerance; subnormal numbers, numbers just below a power of two, large numbers and NaN payloads are not among them", "anchors": ["crates/hodu_cpu_kernels/kernels/t_bf16.h", "crates/hodu_cpu_kernels/kernels/t_f16.h", "crates/hodu_cpu_kernels/kernels/t_f8e4m3.h", "crates/hodu_cpu_kernels/kernels/t_f8e5m2.h"]}
{"id": "C115", "title": "Scalars converted to integers saturate", "statement": "Converting a scalar to an integer type gives the number of that type closest to its value, with the fraction of a float dropped and NaN read as 0; building a scalar from an integer gives that integer or the closest one.", "quantifier": "all scalars of all types (booleans, eight integer types, binary32 and binary64) and all integer targets", "why_tests_cant": "there are 10 conversion functions with 15 arms each; the tests convert small numbers that fit every type", "anchors": ["crates/hodu_core/src/scalar.rs"]}
{"id": "C116", "title": "Arithmetic on scalars is exact", "statement": "Sum, difference, product, quotient, remainder, power and root of scalars give the exact result of the type and an error otherwise.", "quantifier": "all pairs of scalars of the integer types, in builds with and without overflow checks", "why_tests_cant": "the results are wrong only for operands near the ends of the types, for mixed types and negative exponents, and differ between debug and release builds", "anchors": ["crates/hodu_core/src/scalar.rs"]}
{"id": "C117", "title": "Casting a tensor agrees with converting a scalar", "statement": "The cast of an element by the kernels to an integer type is the number that the conversion of a scalar gives.", "quantifier": "all values of all types and all integer targets", "why_tests_cant": "the two agree on every value that fits the target, and the tests cast such values only; out of range the C cast is undefined, so a test depends on the compiler", "anchors": ["crates/hodu_cpu_kernels/kernels/ops_cast.c", "crates/hodu_core/src/scalar.rs"]}
{"id": "C118", "title": "Integer arithmetic of the kernels is exact modulo the width", "statement": "Sum, difference, product, quotient, remainder, power, negation, magnitude, square, root and reciprocal of integer tensors are, element by element, the exact result reduced modulo 2^w, and defined for all operands.", "quantifier": "all operands of the eight integer types", "why_tests_cant": "undefined behaviour of C does not show in a test: a compiler may give the expected number at one optimisation level and another at the next; the operands are at the ends of the types", "anchors": ["crates/hodu_cpu_kernels/kernels/ops_binary.c", "crates/hodu_cpu_kernels/kernels/ops_unary.c", "crates/hodu_cpu_kernels/kernels/math_utils.h"]}
{"id": "C119", "title": "Bitwise operations of the kernels compute every bit", "statement": "and, or, xor and not of integer tensors compute each bit of the result from the bits of the operands, and shifts multiply or divide by a power of two modulo 2^w.", "quantifier": "all operands of the eight integer types, all shift amounts less than the width", "why_tests_cant": "2^64 operands; shifts of negative numbers and shifts into the sign bit are undefined in C and come out right by luck", "anchors": ["crates/hodu_cpu_kernels/kernels/ops_bitwise.c"]}
{"id": "C120", "title": "A tensor saved as JSON is restored by loading it", "statement": "Serializing a tensor to JSON and deserializing the result gives a tensor of the same shape, dtype and elements, for one tensor and for a collection of named tensors.", "quantifier": "every tensor of every dtype, every shape and layout", "why_tests_cant": "the tests compare only shape and dtype of four small integers; NaN, infinities, subnormal numbers, extreme integers and views are not among them", "anchors": ["crates/hodu_core/src/format/json.rs:serialize", "crates/hodu_core/src/format/json.rs:deserialize", "crates/hodu_core/src/format/json.rs:serialize_many"]}
{"id": "C121", "title": "Loading JSON keeps what the file states or refuses it", "statement": "Whenever a JSON value is loaded as a tensor, shape and dtype are the ones stated, the shape has as many elements as the data, and every entry is the stated boolean, integer or nearest float; anything else is refused with an error and never panics.", "quantifier": "every JSON value", "why_tests_cant": "the failures need numbers outside the type or sizes whose product leaves 64 bits", "anchors": ["crates/hodu_core/src/format/json.rs:json_to_tensor", "crates/hodu_core/src/format/json.rs:json_data_to_tensor", "crates/hodu_core/src/types/shape.rs:Shape::size"]}
{"id": "C122", "title": "Printing a tensor shows its elements at their places and never panics", "statement": "Formatting any tensor with Display or Debug gives text in which every shown element is the tensor's own element at that index, nested in as many brackets as its rank, and never panics.", "quantifier": "every tensor layout and storage", "why_tests_cant": "the failures need empty inner axes or tensors that are views into a longer storage", "anchors": ["crates/hodu_core/src/tensor/display.rs:display_tensor_data", "crates/hodu_core/src/tensor/display.rs:debug_format_data"]}
{"id": "C123", "title": "arange gives start, start + step, ... strictly before the end", "statement": "Tensor::arange with a nonzero step gives exactly the terms start + i * step which lie before end in the direction of the step, of the common dtype, and refuses empty ranges and a zero step with an error.", "quantifier": "every start, end and step of every scalar type", "why_tests_cant": "the failures need integers over 24 bits, f64 values that no f32 holds, fractional steps that divide the range after rounding, or NaN and infinity", "anchors": ["crates/hodu_core/src/tensor/creation.rs:Tensor::arange"]}
{"id": "C124", "title": "linspace gives evenly spaced elements from start to end", "statement": "Tensor::linspace gives as many elements as steps, the first being start, the last being end and the others evenly spaced between them.", "quantifier": "every start, end and number of steps", "why_tests_cant": "whether the last element hits the end depends on how f32 rounds the step", "anchors": ["crates/hodu_core/src/tensor/creation.rs:Tensor::linspace"]}
{"id": "C125", "title": "Every operation runs on every type its validation accepts", "statement": "For every operation and element type that validate_dtype_for_op accepts, the storage call has an arm for the type and the kernel name it builds is in the dispatch table, so that the call neither panics nor fails for its type.", "quantifier": "every operation and every element type", "why_tests_cant": "names are joined at run time and matched in tables generated by macros; a missing entry is seen only when that pair is run", "anchors": ["crates/hodu_core/src/utils/valid.rs:validate_dtype_for_op", "crates/hodu_cpu_kernels/src/kernels/ops_reduce.rs:dispatch_reduce", "crates/hodu_cpu_kernels/src/kernels/ops_unary.rs:dispatch_unary", "crates/hodu_cpu_kernels/src/kernels/ops_binary.rs:dispatch_binary", "crates/hodu_core/src/be_cpu/storage/ops_reduce.rs:call_ops_reduce"]}
{"id": "C126", "title": "Names given by a user, a manifest or a model stay in the directory they are joined to", "statement": "A name that becomes a path - an input of Runtime::run, the backend of `hodu clean --backend`, the name in a plugin's manifest - leads to the entry of that name in the directory it is joined to: the plugin reads each input it was given, clean removes only the cache asked for, installing and removing a plugin touch only its own directory.", "quantifier": "for all names, directories, lists of inputs and file systems", "why_tests_cant": "Names are arbitrary text and the file system arbitrary; tests use a few well-behaved names in one process.", "anchors": ["crates/hodu_plugin_runtime/src/runtime.rs:149-163", "hodu-cli/src/commands/clean.rs:22-77", "hodu-cli/src/commands/plugin/install.rs:373-399", "hodu-cli/src/commands/plugin.rs:524-532"]}
{"id": "C127", "title": "An installed plugin offers exactly what its manifest declares", "statement": "The registry entry made from a manifest offers an ability (run, build, load or save models, load or save tensors) to the commands exactly if the manifest declares the capability, with the declared devices and extensions.", "quantifier": "for all manifests", "why_tests_cant": "Manifests are arbitrary combinations of capabilities; tests use one kind of plugin at a time.", "anchors": ["hodu-cli/src/commands/plugin/install.rs:447-537", "crates/hodu_plugin_runtime/src/types.rs:53-138"]}
{"id": "C128", "title": "A command starts only an enabled plugin that can do what it is started for", "statement": "The plugin that run, build or convert starts is installed, enabled, and has the capability it is started for; and if there is such a plugin one is found.", "quantifier": "for all registries, names, devices and extensions", "why_tests_cant": "Depends on the order and the combination of installed plugins.", "anchors": ["hodu-cli/src/commands/run.rs:90-112,411-432", "hodu-cli/src/commands/build.rs:68-103,170-228", "hodu-cli/src/commands/convert.rs:91-195", "hodu-cli/src/plugins/process.rs:66-94"]}
{"id": "C129", "title": "The version installed is compatible and the newest, and updating does not go back", "statement": "Installing without a version takes the newest listed version compatible with the host, an incompatible plugin is refused, and updating never replaces a plugin by an older one, changes where it comes from or whether it is enabled.", "quantifier": "for all hosts, lists of versions and installed plugins", "why_tests_cant": "The official registry is outside the repository and its contents arbitrary.", "anchors": ["hodu-cli/src/commands/plugin/install.rs:49-146,333-356", "hodu-cli/src/commands/plugin/update.rs:43-91"]}
{"id": "C130", "title": "The package name read from Cargo.toml is the name of the package", "statement": "parse_package_name returns the value of the key name in the section [package].", "quantifier": "for all contents of Cargo.toml around the section and the line", "why_tests_cant": "The contents are arbitrary text.", "anchors": ["hodu-cli/src/commands/plugin/install.rs:554-576"]}
{"id": "C131", "title": "Atomic updates on the GPU take effect one after the other", "statement": "Threads adding to, maximising or minimising elements of one buffer with the atomic updates of the CUDA kernels leave the elements as if the calls were made one after the other, each on its own element only, and every call returns.", "quantifier": "for all element types with an atomic update, sets of threads, memories and schedules of the threads", "why_tests_cant": "The schedule is chosen by the hardware; lost updates show only under rare interleavings.", "anchors": ["crates/hodu_cuda_kernels/kernels/atomic.cuh:8-500"]}
{"id": "C132", "title": "Matrix products on the GPU are the products of the matrices", "statement": "The matrix product kernels of the CUDA backend write every element of the result, each the sum of the products of the elements along the inner axis, whatever the order in which their threads run and whatever lay in shared memory and in the output buffer before; and the threads come to the end: none waits for ever at a barrier.", "quantifier": "for all matrices, batches that broadcast, contents of uninitialised memory and schedules of the threads", "why_tests_cant": "The schedule and the contents of uninitialised memory are chosen by the hardware; a missing barrier or an element never written shows only sometimes.", "anchors": ["crates/hodu_cuda_kernels/kernels/ops_matrix.cu:9-150", "crates/hodu_cuda_kernels/src/kernels/ops_matrix.rs:328-384", "crates/hodu_cuda_kernels/src/kernels/ops_matrix.rs:539-585", "crates/hodu_core/src/be_cuda/storage/ops_matrix.rs:10-169"]}
{"id": "C133", "title": "A GPU launch works on every element exactly once, and ends", "statement": "A CUDA kernel launched for n elements works on each of them exactly once and on nothing else, whatever the order in which its threads run, and its threads return; an element-wise operation therefore gives the function of the elements, whatever lay in the output buffer.", "quantifier": "for all numbers of elements, tensors whose layout stays inside their storage, functions and schedules of the threads", "why_tests_cant": "Counters wrap only with billions of elements, more than a test would allocate, and the order of the threads is chosen by the hardware.", "anchors": ["crates/hodu_cuda_kernels/src/kernels/ops_binary.rs:53-91", "crates/hodu_cuda_kernels/kernels/ops_binary.cu:8-55", "crates/hodu_cuda_kernels/kernels/ops_unary.cu:8-58", "crates/hodu_cuda_kernels/kernels/utils.cuh:8-30", "crates/hodu_cuda_kernels/kernels/ops_memory.cu:6-51"]}
{"id": "C134", "title": "Moving a tensor to another device, or asking for the type it has, keeps its elements", "statement": "to_device gives a tensor of the same shape with the same elements on the device asked for, and to_dtype with the type the tensor already has gives a tensor of the same shape with the same elements, whatever view the tensor is of its storage and whichever device it is on.", "quantifier": "for all tensors whose layout stays inside their storage, devices and schedules of the copying kernel", "why_tests_cant": "Needs a device with a view that does not start at the beginning of its storage or is not in row-major order; the CPU tests move fresh tensors, for which every layout is the plain one.", "anchors": ["crates/hodu_core/src/tensor/ops/cast_memory.rs:11-54", "crates/hodu_core/src/be/storage.rs:1372-1451", "crates/hodu_core/src/be_cpu/storage.rs:693-770", "crates/hodu_core/src/be_cuda/storage.rs:597-600", "crates/hodu_core/src/be_cuda/storage.rs:677-705", "crates/hodu_core/src/be_metal/storage.rs:528-532", "crates/hodu_core/src/be_metal/storage.rs:565-590"]}
{"id": "C135", "title": "Indexed reads and writes on CUDA tensors give what they name, whatever the order of the threads", "statement": "On CUDA tensors index_select and gather give at each position the element of the input that the index names, scatter gives at each position the source element that belongs to it and keeps the element of the input where none does, and index_put replaces the elements named; the order in which the threads run does not matter.", "quantifier": "for all tensors, index tensors, axes and schedules of the threads that come to their end", "why_tests_cant": "The repository has no CUDA tests in its continuous integration, the buffer that scatter leaves unwritten may happen to hold zeros, and the order of racing threads is chosen by the hardware.", "anchors": ["crates/hodu_cuda_kernels/kernels/ops_indexing.cu:7-182", "crates/hodu_core/src/be_cuda/storage/ops_indexing.rs:11-448", "crates/hodu_cuda_kernels/src/kernels/ops_indexing.rs:224-264", "crates/hodu_core/src/be_cuda/device.rs:91-101", "crates/hodu_core/src/op_metadatas.rs:706-877"]}
{"id": "C136", "title": "Top-k on CUDA tensors returns the k extreme elements, whatever the order of the threads", "statement": "On a CUDA tensor topk(k, dim, largest, sorted) returns, for every fibre along the axis, k entries which are its k largest (smallest) elements, each value being the element at the returned index, indices distinct, in order when sorted; the order in which the threads run does not matter.", "quantifier": "for all tensors, k, both directions and all schedules of the threads that come to their end", "why_tests_cant": "The kernel sorts in local arrays of 64 cells, so that small tests pass; there are no CUDA tests in the continuous integration; unwritten cells may happen to hold plausible numbers.", "anchors": ["crates/hodu_cuda_kernels/kernels/ops_sort.cu:17-73", "crates/hodu_core/src/be_cuda/storage/ops_sort.rs:12-83", "crates/hodu_core/src/tensor/ops/sort.rs:30-188", "crates/hodu_cuda_kernels/src/kernels/ops_sort.rs:36-75"]}
{"id": "C137", "title": "concat, split, chunk, pad and flip give on CUDA what they give on the CPU", "statement": "Whenever one of Tensor::concat, split, chunk, pad (in its four modes) and flip gives a result on the CPU, the CUDA backend gives the same tensor, for every order in which the threads of the launch run. It holds for results (each piece, for split and chunk) of at most 2^32-256 elements, 2^32-1 for flip, and, for concat, split and chunk, for the six element types they are written for. It is false otherwise: for the other nine element types concat and split give no result, and a piece of no elements at the end is refused on the CPU and given on CUDA.", "quantifier": "for all tensors, axes, sizes, padding amounts and modes, and every schedule of the threads that ends", "why_tests_cant": "The order of the threads is up to the device; a test sees one order, one shape and mostly f32, and the CUDA backend is not built by the default tests.", "anchors": ["crates/hodu_cuda_kernels/kernels/ops_concat_split.cu:6-81", "crates/hodu_cuda_kernels/kernels/ops_shape_memory.cu:14-40", "crates/hodu_cuda_kernels/kernels/ops_padding.cu:6-172", "crates/hodu_core/src/be_cuda/storage/ops_concat_split.rs:11-232", "crates/hodu_core/src/be_cuda/storage/ops_shape_memory.rs:10-123", "crates/hodu_core/src/be_cuda/storage/ops_padding.rs:12-324"]}
{"id": "C138", "title": "The cumulative sum on CUDA is the prefix sum, whatever the order of the threads", "statement": "On a CUDA tensor cumsum(dim) holds at each index the sum, in order, of the elements up to it along the axis, for every view of rank at most 16, accumulator and conversion, and however the loops of the threads are interleaved; it is what the CPU gives. It is false of a scalar with an axis other than 0 (the CPU gives it back, CUDA panics), and an axis out of range panics instead of an error.", "quantifier": "for all tensors, axes, element and accumulator types and every interleaving of the threads' iterations that gives each thread its turns", "why_tests_cant": "The order of the threads is up to the device; a test sees one interleaving, one shape and one axis, and the CUDA backend is not built by the default tests.", "anchors": ["crates/hodu_cuda_kernels/kernels/ops_scan.cu:16-148", "crates/hodu_cuda_kernels/src/kernels/ops_scan.rs:35-83", "crates/hodu_core/src/be_cuda/storage/ops_scan.rs:10-119", "crates/hodu_core/src/tensor/ops/scan.rs:11-56"]}
{"id": "C139", "title": "nonzero on CUDA lists the indices of the non-zero elements", "statement": "On a CUDA tensor nonzero returns one row per non-zero element, holding its index, whatever the order in which the threads run: for every view of rank at most 16 with at most 2^32-256 elements the rows are those of the CPU in some order, each once. It is false that they come in row-major order as on the CPU: a row is placed where the atomic counter stands when its thread comes to it, so for every tensor with two or more non-zero elements two schedules give two different tensors. It is false of rank above 16, where the CPU goes up to 32.", "quantifier": "for all tensors, views and all schedules of the two launches that end", "why_tests_cant": "On a lightly loaded device the first warps usually arrive in order, so that a test on a small tensor passes; the order is up to the device, and the CUDA backend is not built by the default tests.", "anchors": ["crates/hodu_cuda_kernels/kernels/ops_indexing.cu:554-615", "crates/hodu_core/src/be_cuda/storage/ops_indexing.rs:538-693", "crates/hodu_cuda_kernels/src/kernels/ops_indexing.rs:330-417", "crates/hodu_core/src/tensor/ops/indexing.rs:680-740"]}
{"id": "C140", "title": "Reductions on CUDA", "statement": "A reduction (sum, max, mean, argmax, any, ...) of a tensor on a CUDA device gives, in every interleaving of the threads, what the same reduction gives on the CPU: each element of the result accumulates the elements of its fibre, with the precision of the element type, and the result has the type the operation promises.", "quantifier": "all tensors and axes, all element types, all schedules of the threads that end", "why_tests_cant": "The schedules and the shapes are unbounded; sums beyond 2^24 and types without a case need a GPU and chosen values.", "anchors": ["crates/hodu_cuda_kernels/kernels/ops_reduce.cu:7-75", "crates/hodu_cuda_kernels/kernels/ops_reduce.cu:514-557", "crates/hodu_core/src/be_cuda/storage/ops_reduce.rs:10-117", "crates/hodu_cuda_kernels/src/kernels/ops_reduce.rs:33-78"]}
{"id": "C141", "title": "unique and its bitonic sort on CUDA", "statement": "On a CUDA device, in every interleaving of the threads of every launch, the bitonic sort rearranges the padded elements into order with their positions, and unique gives the distinct elements in increasing order, the place of each element among them and the number of times each occurs.", "quantifier": "all tensors of up to 2^31 elements, all element types with a strict weak order, all schedules of every launch that end", "why_tests_cant": "The schedules and sizes are unbounded, and a test does not see the write outside the inverse that an element not below the padding causes.", "anchors": ["crates/hodu_cuda_kernels/kernels/ops_indexing.cu:674-812", "crates/hodu_core/src/be_cuda/storage/ops_indexing.rs:695-962", "crates/hodu_core/src/op_metadatas.rs:972-992", "crates/hodu_core/src/tensor/ops/indexing.rs:756-835"]}
{"id": "C142", "title": "compress on CUDA", "statement": "On a CUDA device, in every interleaving of the threads, compress keeps exactly the elements (or the slices of the axis) at which the condition holds, in their order, whatever views the tensor and the condition are.", "quantifier": "all tensors of every rank, all conditions of up to 2^32-256 elements, all schedules of the threads that end", "why_tests_cant": "The schedules, shapes and ranks are unbounded, and reading the condition outside its buffer is not seen by a test.", "anchors": ["crates/hodu_cuda_kernels/kernels/ops_indexing.cu:903-1001", "crates/hodu_core/src/be_cuda/storage/ops_indexing.rs:965-1100", "crates/hodu_cuda_kernels/src/kernels/ops_indexing.rs:668-713", "crates/hodu_core/src/tensor/ops/indexing.rs:848-995"]}
{"id": "C143", "title": "Filling with a constant", "statement": "Setting the elements of a view to a constant, on the CPU and on CUDA, writes the value to exactly the cells of the view, whatever its rank, strides and offset and however the threads interleave; zeros, ones and full give tensors whose every element is the value.", "quantifier": "all storages, views and values, all platforms and interleavings of the workers, all schedules of the device that end", "why_tests_cant": "Interleavings, shapes and strides are unbounded; offsets beyond 2^32 do not fit in a test.", "anchors": ["crates/hodu_cpu_kernels/kernels/storage.c:18-82", "crates/hodu_cuda_kernels/kernels/storage.cu:6-27", "crates/hodu_core/src/be_cpu/storage.rs:329-392", "crates/hodu_core/src/be_cuda/storage.rs:271-336", "crates/hodu_core/src/tensor/creation.rs:126-193"]}
{"id": "C144", "title": "Window reductions on CUDA", "statement": "A window reduction on CUDA, for every schedule, gives at each output position the accumulation of exactly the elements its window covers, as on the CPU, for every element type and rank.", "quantifier": "all element types, accumulations, tensors, windows, strides and paddings, all schedules of the device that end", "why_tests_cant": "Schedules, shapes, strides and paddings are unbounded, and no device is available to run on.", "anchors": ["crates/hodu_cuda_kernels/kernels/ops_windowing.cu:7-129", "crates/hodu_cuda_kernels/kernels/ops_windowing.cu:131-196", "crates/hodu_core/src/be_cuda/storage/ops_windowing.rs:10-129", "crates/hodu_core/src/tensor/ops/windowing.rs:10-134"]}
{"id": "C145", "title": "einsum on CUDA", "statement": "einsum on CUDA, for every schedule, gives at each output position the sum over the contracted labels of the product of all operands, and fails exactly where the CPU fails.", "quantifier": "all equations, operands and layouts, element arithmetic, all schedules of the device that end", "why_tests_cant": "Schedules, equations and shapes are unbounded, and no device is available to run on.", "anchors": ["crates/hodu_cuda_kernels/kernels/ops_einsum.cu:31-182", "crates/hodu_cuda_kernels/src/kernels/ops_einsum.rs:24-69", "crates/hodu_core/src/be_cuda/storage/ops_einsum.rs:11-136", "crates/hodu_core/src/tensor/ops/einsum.rs:42-140"]}
{"id": "C146", "title": "Determinant, inverse and trace on CUDA", "statement": "det, inv and trace on CUDA, for every schedule, give for each matrix of the stack what the CPU gives, for every element type and size of the matrices.", "quantifier": "all stacks of square matrices and layouts, element types, arithmetic, all schedules of the device that end", "why_tests_cant": "Schedules, sizes and matrices are unbounded, and no device is available to run on.", "anchors": ["crates/hodu_cuda_kernels/kernels/ops_linalg.cu:23-142", "crates/hodu_cuda_kernels/kernels/ops_linalg.cu:178-321", "crates/hodu_cuda_kernels/kernels/ops_linalg.cu:353-389", "crates/hodu_cuda_kernels/src/kernels/ops_linalg.rs:33-193", "crates/hodu_core/src/be_cuda/storage/ops_linalg.rs:10-256", "crates/hodu_core/src/tensor/ops/linalg.rs:23-256"]}
{"id": "C147", "title": "Convolutions on CUDA", "statement": "Convolutions and transposed convolutions of one, two and three spatial axes, and the gradients of their weights, on CUDA, for every schedule, give what they are defined to be: the sum of the products of the elements that meet.", "quantifier": "all operands and layouts, strides, paddings, dilations, element types, arithmetic, all schedules of the device that end, all orders of atomic additions", "why_tests_cant": "Schedules, sizes and parameters are unbounded, and no device is available to run on.", "anchors": ["crates/hodu_cuda_kernels/kernels/ops_conv.cu:8-160", "crates/hodu_cuda_kernels/kernels/ops_conv.cu:162-325", "crates/hodu_cuda_kernels/kernels/ops_conv.cu:327-538", "crates/hodu_cuda_kernels/src/kernels/ops_conv.rs:26-135", "crates/hodu_core/src/be_cuda/storage/ops_conv.rs:11-259", "crates/hodu_core/src/be_cuda/device.rs:91-101", "crates/hodu_core/src/tensor/ops/conv.rs:17-1327", "crates/hodu_cuda_kernels/kernels/ops_conv.cu:540-763", "crates/hodu_cuda_kernels/build.rs:40-60"]}
{"id": "C148", "title": "Resize on CUDA", "statement": "Resize on CUDA, for every schedule and whatever products the compiler contracts with sums, reads and writes in bounds, and gives what it is defined to be and what it gives on the CPU.", "quantifier": "all tensors and views of rank 4 and 5, output sizes, modes, coordinate transforms, rounding modes, element types, arithmetic, contractions, all schedules of the device that end", "why_tests_cant": "Schedules, sizes and contractions are unbounded, and no device is available to run on.", "anchors": ["crates/hodu_cuda_kernels/kernels/ops_resize.cu:24-87", "crates/hodu_cuda_kernels/kernels/ops_resize.cu:100-265", "crates/hodu_cuda_kernels/build.rs:45-52", "crates/hodu_cuda_kernels/src/kernels/ops_resize.rs:30-66", "crates/hodu_core/src/be_cuda/storage/ops_resize.rs:10-94", "crates/hodu_core/src/tensor/ops/resize.rs:33-160", "crates/hodu_core/src/op_metadatas.rs:1319-1360"]}
