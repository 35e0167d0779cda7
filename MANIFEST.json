{
 "claims": [
  {
   "property": "C01",
   "status": "proved",
   "theorems": [
    "C01_fresh_row_major"
   ],
   "note": ""
  },
  {
   "property": "C02",
   "status": "proved",
   "theorems": [
    "C02_views_in_bounds"
   ],
   "note": ""
  },
  {
   "property": "C03",
   "status": "proved",
   "theorems": [
    "C03_tensor_view",
    "C03_view_selects_right_element",
    "C03_view_accepts",
    "C03_view_chain"
   ],
   "note": ""
  },
  {
   "property": "C04",
   "status": "partial",
   "theorems": [
    "C04_negative_step_refuted",
    "C04_negative_step_out_of_bounds_refuted",
    "C04_negative_step_partial"
   ],
   "note": "REFUTED: a negative-step slice advances forwards by |step|; [0..5) from 4 backwards reads addresses 4,5,6,.. outside the storage. Partial: for a start inside the axis the element count is Python's and the first element is right."
  },
  {
   "property": "C05",
   "status": "proved",
   "theorems": [
    "C05_permute_accepts",
    "C05_permute_inverse",
    "C05_transpose_involutive"
   ],
   "note": ""
  },
  {
   "property": "C06",
   "status": "proved",
   "theorems": [
    "C06_reshape"
   ],
   "note": ""
  },
  {
   "property": "C07",
   "status": "partial",
   "theorems": [
    "C07_squeeze_refuted",
    "C07_squeeze_partial",
    "C07_unsqueeze_squeeze"
   ],
   "note": "REFUTED: an axis named twice is removed twice ([1,5] squeeze [0,0] gives []). Partial: proved for distinct axes; unsqueeze then squeeze is the identity."
  },
  {
   "property": "C08",
   "status": "partial",
   "theorems": [
    "C08_broadcast_two_partial",
    "C08_broadcast_three_partial",
    "C08_rule_laws",
    "C08_zero_size_refuted"
   ],
   "note": "REFUTED: an axis of size 1 against size 0 is given size 1 and the broadcast is then refused ([1] vs [0]). Partial: proved for positive sizes, for two and three operands, with the laws of the rule."
  },
  {
   "property": "C09",
   "status": "partial",
   "theorems": [
    "C09_broadcast_shape_refuted",
    "C09_broadcast_shape_wrong_refuted",
    "C09_broadcast_shape_partial"
   ],
   "note": "REFUTED: Shape::broadcast_shape re-reads the first dimension of the lower-rank operand ([3] vs [2,3] refused; [3] vs [1,3] gives [3,3]). Partial: right for equal ranks and positive sizes."
  },
  {
   "property": "C10",
   "status": "proved",
   "theorems": [
    "C10_contiguity_exact",
    "C10_fresh_strides"
   ],
   "note": ""
  },
  {
   "property": "C11",
   "status": "proved",
   "theorems": [
    "C11_normalize_axis",
    "C11_dim_size",
    "C11_spelling",
    "C11_bad_axis_refused"
   ],
   "note": ""
  },
  {
   "property": "C12",
   "status": "partial",
   "theorems": [
    "C12_read_back_partial",
    "C12_contiguous_iff_partial",
    "C12_read_back_as_partial",
    "C12_slice_refuted",
    "C12_offset_refuted",
    "C12_convert_refuted"
   ],
   "note": "REFUTED: to_flatten_vec of a contiguous view (e.g. a slice) returns the whole parent storage, of a strided view ignores the offset, and reading a strided tensor as another dtype converts to row-major order but indexes it with the old strides (C12_slice_refuted, C12_offset_refuted, C12_convert_refuted). Proved: correct whenever a contiguous tensor fills its storage (also necessary) and a strided one has offset 0."
  },
  {
   "property": "C13",
   "status": "partial",
   "theorems": [
    "C13_bytes_partial",
    "C13_hdt_partial",
    "C13_slice_refuted"
   ],
   "note": "REFUTED: to_bytes of a contiguous slice writes the whole parent storage, which from_bytes then refuses (C13_slice_refuted). Proved for every strided tensor and every contiguous tensor that fills its storage, every dtype."
  },
  {
   "property": "C14",
   "status": "proved",
   "theorems": [
    "C14_scalar",
    "C14_storage",
    "C14_bytes",
    "C14_bool_bytes"
   ],
   "note": "All fifteen dtypes; floats as bit patterns."
  },
  {
   "property": "C15",
   "status": "proved",
   "theorems": [
    "C15_correspondence",
    "C15_correspondence_back",
    "C15_distinct",
    "C15_parse"
   ],
   "note": "All strings; ASCII case folding."
  },
  {
   "property": "C16",
   "status": "partial",
   "theorems": [
    "C16_rows_partial",
    "C16_cubes_partial",
    "C16_from_slice",
    "C16_ragged_refuted",
    "C16_empty_matrix_refuted"
   ],
   "note": "REFUTED: ragged rows are accepted with a shape larger than the data, and a 3-D literal whose first matrix is empty panics (C16_ragged_refuted, C16_empty_matrix_refuted). Proved for rectangular 2-D and 3-D literals and for flat data with an explicit shape; 4-D is modelled but only 2-D/3-D read-back is proved."
  },
  {
   "property": "C17",
   "status": "proved",
   "theorems": [
    "C17_binary_kernel"
   ],
   "note": ""
  },
  {
   "property": "C18",
   "status": "partial",
   "theorems": [
    "C18_binary_result_partial",
    "C18_binary_storage_partial",
    "C18_binary_result_refuted",
    "C18_offset_out_of_bounds_refuted"
   ],
   "note": "REFUTED: the result keeps the layout of the broadcast left operand, so [10]+[1,2] reads back as [11,11], and a left operand with an offset reads outside the result's storage. Partial: right when the left operand is not expanded and has offset 0 (or is non-contiguous and so copied); the storage is always right in row-major order."
  },
  {
   "property": "C19",
   "status": "proved",
   "theorems": [
    "C19_chunks_partition",
    "C19_bitwise_chunks_disjoint",
    "C19_any_interleaving"
   ],
   "note": ""
  },
  {
   "property": "C20",
   "status": "partial",
   "theorems": [
    "C20_unary_partial",
    "C20_unary_rank0_refuted",
    "C20_rank0_reachable_refuted",
    "C20_bitwise_unary_refuted",
    "C20_bitwise_unary_partial"
   ],
   "note": "REFUTED: the offset of a rank-0 view is ignored (x[1:2].squeeze(0)+1 uses x[0]); bitwise not/shift keep the operand's strides on a row-major result. Partial: every other view."
  },
  {
   "property": "C21",
   "status": "partial",
   "theorems": [
    "C21_where3_partial",
    "C21_integers",
    "C21_binary32",
    "C21_binary64",
    "C21_rank0_refuted",
    "C21_infinite_unselected"
   ],
   "note": "REFUTED: the conversion of a rank-0 condition that is a view with an offset reads element 0 of its storage (C21_rank0_refuted). Proved: every other condition, all broadcastable shapes without empty axes, exact for integers and, up to the sign of zero, for all finite binary32/binary64 values."
  },
  {
   "property": "C22",
   "status": "partial",
   "theorems": [
    "C22_clamp_refuted",
    "C22_clamp_min_refuted",
    "C22_clamp_max_refuted",
    "C22_clamp_min_actual_partial",
    "C22_clamp_max_actual_partial",
    "C22_clamp_actual_partial"
   ],
   "note": "REFUTED: the where3 arguments are swapped, so clamp_min returns the minimum, clamp_max the maximum and clamp(lo,hi) the constant hi (C22_*_refuted; C22_*_actual_partial prove what is computed instead for every tensor)."
  },
  {
   "property": "C23",
   "status": "partial",
   "theorems": [
    "C23_masked_fill_refuted",
    "C23_masked_fill_actual_partial"
   ],
   "note": "REFUTED: masked_fill fills where the mask is false and keeps the value where it is true (C23_masked_fill_refuted; C23_masked_fill_actual_partial proves this for every tensor)."
  },
  {
   "property": "C24",
   "status": "partial",
   "theorems": [
    "C24_fibre_partial",
    "C24_any_order_partial",
    "C24_sum_partial",
    "C24_mean_partial",
    "C24_one_axis_order_partial",
    "C24_partition",
    "C24_max_partial",
    "C24_min_partial",
    "C24_duplicate_axis_refuted",
    "C24_rank17_refuted"
   ],
   "note": "REFUTED: summing over an axis named twice counts every element d times (sum of [1,2,3] over (0,0) is 18), and at rank 17 the kernel overruns its 16-entry local arrays. Proved for distinct axes and rank <= 16 (and no zero-size kept axis when keep_dim is false)."
  },
  {
   "property": "C25",
   "status": "partial",
   "theorems": [
    "C25_shape_partial",
    "C25_zero_size_refuted",
    "C25_bad_axis_refuted"
   ],
   "note": "REFUTED: with keep_dim=false a kept axis of size 0 is dropped too ([0,3] summed over axis 1 claims shape [] on an empty storage), and an out-of-range axis panics instead of returning an error. Proved for all other inputs."
  },
  {
   "property": "C26",
   "status": "partial",
   "theorems": [
    "C26_prefix_partial",
    "C26_difference_partial",
    "C26_scalar",
    "C26_bad_axis_refuted",
    "C26_rank17_refuted"
   ],
   "note": "REFUTED: the axis is not checked (an axis out of range makes the kernel read outside its metadata and local arrays), and at rank 17 the kernel overruns its 16-entry local arrays. Proved for every view of rank <= 16 and every axis in range, any accumulator."
  },
  {
   "property": "C27",
   "status": "partial",
   "theorems": [
    "C27_concat_partial",
    "C27_fresh_packed",
    "C27_views_refuted",
    "C27_bad_axis_refuted"
   ],
   "note": "REFUTED: all storages are packed one after the other but the buffer offsets are cumulated element counts of the shapes, so a view shorter than its storage before another input makes the later ones read from the wrong place (C27_views_refuted); an axis out of range panics with two inputs. Proved when every input but the last fills its storage (any strides), rank <= 16."
  },
  {
   "property": "C28",
   "status": "partial",
   "theorems": [
    "C28_split_concat_partial",
    "C28_pieces_partial",
    "C28_rank17_refuted"
   ],
   "note": "REFUTED only for rank 17 (the kernel overruns its 16-entry local arrays); proved for every view of rank <= 16."
  },
  {
   "property": "C29",
   "status": "partial",
   "theorems": [
    "C29_ceil_div",
    "C29_chunk_partial",
    "C29_underflow_refuted",
    "C29_five_into_four_refuted"
   ],
   "note": "REFUTED: chunk panics (usize underflow) exactly when (k-1)*ceil(n/k) > n, e.g. 5 elements into 4 chunks (C29_underflow_refuted for all such n, k); proved otherwise."
  },
  {
   "property": "C30",
   "status": "partial",
   "theorems": [
    "C30_flip_partial",
    "C30_involution_partial",
    "C30_views_refuted",
    "C30_bad_axis_refuted"
   ],
   "note": "REFUTED: the kernel ignores strides and offset, so flipping a transposed or sliced view is wrong, and an axis out of range is silently ignored. Proved for operands that are row-major from the start of their storage."
  },
  {
   "property": "C31",
   "status": "partial",
   "theorems": [
    "C31_index_select_partial",
    "C31_index_view_refuted",
    "C31_bad_axis_refuted",
    "C31_gather_partial",
    "C31_gather_layout_refuted",
    "C31_gather_shape_refuted"
   ],
   "note": "REFUTED: index_select reads the index tensor's storage without its layout (C31_index_view_refuted) and panics on an axis out of range; gather reuses the index tensor's layout for a row-major result (C31_gather_layout_refuted) and reads out of bounds when index shapes do not fit (C31_gather_shape_refuted). Proved for index tensors contiguous at offset 0, any input strides, any rank."
  },
  {
   "property": "C32",
   "status": "partial",
   "theorems": [
    "C32_reflect_index",
    "C32_replicate_index",
    "C32_circular_index",
    "C32_pad_partial",
    "C32_source_in_range",
    "C32_views_refuted",
    "C32_empty_axis_refuted"
   ],
   "note": "REFUTED: the kernels ignore strides and offset of a view, and pad an empty axis out of bounds. The three index functions are proved for every integer and every positive size; the whole operation for row-major operands at offset 0."
  },
  {
   "property": "C33",
   "status": "partial",
   "theorems": [
    "C33_topk_partial",
    "C33_too_many",
    "C33_qsort_exists",
    "C33_other_axis_refuted",
    "C33_view_refuted",
    "C33_integers_refuted"
   ],
   "note": "REFUTED: along any axis but the last, and on views, the kernel reads the original storage instead of the permuted copy; integers and f64 are compared after conversion to single precision. Proved for the last axis of contiguous tensors, for any strict weak order, any qsort meeting the C contract."
  },
  {
   "property": "C34",
   "status": "partial",
   "theorems": [
    "C34_window_partial",
    "C34_sum",
    "C34_max",
    "C34_misfit_panics",
    "C34_mean_bf16_refuted"
   ],
   "note": "REFUTED: the mean of bf16/f16/f8 adds and divides the raw bit patterns (C34_mean_bf16_refuted); a window larger than the padded input or a zero stride panics. Proved for sum, max, min and the order-sensitive fold of every other element type, rank at most 16."
  },
  {
   "property": "C35",
   "status": "partial",
   "theorems": [
    "C35_kernel_partial",
    "C35_accepts",
    "C35_implicit",
    "C35_one_refuted",
    "C35_matmul_refuted",
    "C35_rank_refuted",
    "C35_empty_refuted",
    "C35_repeated_refuted"
   ],
   "note": "REFUTED as stated: tensor/ops/einsum.rs passes the layouts of tensors[1..] with the storages of all tensors. With one operand the result never depends on the data (C35_one_refuted, all equations); \"ij,jk->ik\" returns row sums (C35_matmul_refuted); operands of different rank put the metadata out of step (C35_rank_refuted). Even with all layouts: an empty output divides by zero (C35_empty_refuted) and an output label given twice is accepted and ignored (C35_repeated_refuted). Proved: C35_kernel_partial (parser + metadata + kernel, given all layouts, compute the named contraction for every equation, up to 4 operands and 16 labels/axes), C35_accepts, C35_implicit."
  },
  {
   "property": "C36",
   "status": "partial",
   "theorems": [
    "C36_matrices_partial",
    "C36_batched_partial",
    "C36_matrix_vector_partial",
    "C36_vector_matrix_partial",
    "C36_vector_vector_partial",
    "C36_blas_matrices_partial",
    "C36_blas_row_major",
    "C36_blas_transposed",
    "C36_blas_batched_partial",
    "C36_blas_matrix_vector_partial",
    "C36_blas_vector_matrix_partial",
    "C36_mismatch_rejected",
    "C36_blas_batch_axes_refuted",
    "C36_blas_out_of_bounds_refuted",
    "C36_blas_broadcast_refuted",
    "C36_blas_empty_inner_refuted",
    "C36_vector_offset_refuted",
    "C36_empty_batch_refuted"
   ],
   "note": "REFUTED: for f32/f64 (BLAS) with two or more batch axes the operand strides are taken in reverse order (wrong values, or reads out of bounds for unequal sizes); a broadcast (stride 0) matrix is read with leading dimension K; K = 0 computes nothing instead of zeros; for every dtype vector.vector with a left view starting inside its storage reads out of bounds and batch sizes 0 and 1 are refused. Proved: the value and the order of additions at every index for all other cases: ops_matrix.c kernels for all shapes, strides and thread schedules (batch rank <= 16, positive batch sizes), BLAS kernels (cblas_gemm taken by its contract) with at most one batch axis and leading dimensions that describe the matrix."
  },
  {
   "property": "C37",
   "status": "proved",
   "theorems": [
    "C37_paths",
    "C37_succeeds",
    "C37_tapes_ordered",
    "C37_transpose",
    "C37_derivative"
   ],
   "note": ""
  },
  {
   "property": "C38",
   "status": "partial",
   "theorems": [
    "C38_unary_partial",
    "C38_domains",
    "C38_hard_refuted",
    "C38_tan_partial",
    "C38_tan_refuted",
    "C38_gelu_partial",
    "C38_gelu_refuted",
    "C38_chain",
    "C38_scalar_partial",
    "C38_div_scalar_refuted",
    "C38_pow_scalar_refuted",
    "C38_unserved",
    "C38_binary_first_partial",
    "C38_binary_second_partial",
    "C38_rem_refuted",
    "C38_pow_refuted"
   ],
   "note": "REFUTED for: hardsigmoid and hardsilu (the rule multiplies two BOOL masks and always returns an error), gelu (rule uses the constant 0.797885, forward 0.7978845608), tan inside the cut-off band around its poles, div_scalar by 0<|c|<f32::EPSILON (error), pow at (0,0), at negative base with exponent -31 and in the exponent at base 0 (NaN), rem in the second operand for negative quotients (floor instead of truncation). Proved for all reals in all other cases (C38_*_partial), with the sets where the functions are differentiable (C38_domains) and for chains (C38_chain). Exact real arithmetic; erf is characterised by its integral."
  },
  {
   "property": "C39",
   "status": "partial",
   "theorems": [
    "C39_sum_partial",
    "C39_mean_partial",
    "C39_square_refuted",
    "C39_shape_refuted"
   ],
   "note": "REFUTED: without keep_dim the incoming gradient is broadcast against the trailing axes, so summing (or averaging) over anything but the leading axes gives a transposed gradient for square shapes and an error for others. Proved: keep_dim = true with any axes, and keep_dim = false when the reduced axes are the leading ones."
  },
  {
   "property": "C40",
   "status": "partial",
   "theorems": [
    "C40_transpose_partial",
    "C40_transpose_shape_refuted",
    "C40_transpose_value_refuted",
    "C40_permute_partial",
    "C40_identity_partial",
    "C40_permute_refuted",
    "C40_permute_equal_refuted"
   ],
   "note": "REFUTED: the rules guess the axes from the sizes. transpose always swaps the last two axes back; permute applies the axes again when sizes differ, so any permutation that is not its own inverse yields a gradient of the wrong shape, and equal sizes are guessed as the identity. Proved: transposes of the last two axes (any sizes); permute with different sizes and self-inverse axes; identity permute with any sizes."
  },
  {
   "property": "C41",
   "status": "proved",
   "theorems": [
    "C41_flags",
    "C41_reachable",
    "C41_backward",
    "C41_recording",
    "C41_contexts"
   ],
   "note": ""
  },
  {
   "property": "C42",
   "status": "partial",
   "theorems": [
    "C42_valid_partial",
    "C42_no_gradients_partial",
    "C42_release_partial",
    "C42_ids",
    "C42_held_refuted",
    "C42_shared_refuted",
    "C42_result_refuted",
    "C42_zeroed_refuted"
   ],
   "note": "REFUTED: removing a tensor that has a gradient counts the gradient down twice. A gradient handle held over the drop of its tensor dangles after one clone and drop (C42_held_refuted); x and w of (x + w).sum() share one gradient with a temporary, and after backward() x.zero_grad() deletes the gradient of w, whose zero_grad() is then an error (C42_shared_refuted). Results of operations stay registered after their last handle is dropped, and a zeroed gradient can stay for ever with its count wrapped to 2^64-1. Proved: handles and gradients valid, counts exact and last-drop removal in histories where removed tensors do not share their gradient; histories without gradients; identifiers are fresh and never reused in every history."
  },
  {
   "property": "C43",
   "status": "partial",
   "theorems": [
    "C43_constant_refuted",
    "C43_dropped_refuted",
    "C43_unique_refuted",
    "C43_params_refuted"
   ],
   "note": "REFUTED: a target that is a bare constant is in neither inputs, constants nor nodes; a constant whose last handle is dropped between recording and capture() is left out silently; unique() records only its first result, so the inverse and the counts come from nowhere; topk() names its second result in the parameters by the raw identifier, which is not normalised and can name another tensor in the snapshot. Proved for every program: the nodes are exactly the needed operations in their order, identifiers mentioned stay distinct, and closedness of operands and targets is characterised exactly."
  },
  {
   "property": "C44",
   "status": "partial",
   "theorems": [
    "C44_topk_refuted",
    "C44_constant_refuted"
   ],
   "note": "REFUTED: the positions of topk() replay as its values when identifiers are shifted (C44_topk_refuted), a bare constant target has no value. Proved: for every program whose snapshot is closed and that has no operation with several results (or no shift), every target replays to its eager value, for every interpretation of the operations and every input."
  },
  {
   "property": "C45",
   "status": "partial",
   "theorems": [
    "C45_shape",
    "C45_shape_iff",
    "C45_layout_partial",
    "C45_offset_refuted",
    "C45_resolved",
    "C45_view_refuted",
    "C45_from_shape",
    "C45_bounds",
    "C45_first_dynamic"
   ],
   "note": "REFUTED: SymbolicLayout::to_concrete and to_max_layout drop the offset (C45_offset_refuted); with_dim replaces the strides of a view by contiguous ones (C45_view_refuted). Proved: shapes, sizes and axis sizes agree; resolving dimensions of a contiguous layout gives the concrete layout; the allocation bounds every resolution within the declared bounds."
  },
  {
   "property": "C46",
   "status": "proved",
   "theorems": [
    "C46_lookup",
    "C46_meaning",
    "C46_ids",
    "C46_fresh"
   ],
   "note": "Threads are named; the id counter wraps at 2^32."
  },
  {
   "property": "C47",
   "status": "proved",
   "theorems": [
    "C47_shuffle_permutes",
    "C47_all_reachable",
    "C47_random_sampler",
    "C47_contract_needed"
   ],
   "note": "Proved; the generator is any function within the contract of random_range(0..=i)."
  },
  {
   "property": "C48",
   "status": "proved",
   "theorems": [
    "C48_epoch",
    "C48_starts",
    "C48_seed_overflow",
    "C48_failing_sample"
   ],
   "note": "Proved for every reachable loader at the start of an epoch, for datasets and collate functions that succeed; also: building and resetting start an epoch (unless seed + epoch overflows u64 in a build with overflow checks, C48_seed_overflow); a sample that fails to load is retried forever (C48_failing_sample)."
  },
  {
   "property": "C49",
   "status": "partial",
   "theorems": [
    "C49_batch_rows_refuted",
    "C49_batch_rows_partial",
    "C49_batch_pairs_partial",
    "C49_collate_owned_partial"
   ],
   "note": "REFUTED: the batch of indices 0,1,2 of a six-row dataset holds rows 0,2,4 (stack packs whole storages of row views). Proved exactly what happens: row j of the batch is dataset row (i_j + j) mod n, for data and labels alike, for every packed data tensor of rank at most 16; hence the first row of each batch is right. Collation of samples that own their storage is right (C49_collate_owned_partial)."
  },
  {
   "property": "C50",
   "status": "partial",
   "theorems": [
    "C50_concat",
    "C50_subset",
    "C50_split_partial",
    "C50_split_refuted",
    "C50_batch_sampler"
   ],
   "note": "REFUTED for random_split: 16777219 samples with ratio 1.0 panics because the length is rounded to f32. Concatenation, subsets and batch samplers are proved in full; random_split is proved disjoint and covering whenever the computed length does not exceed the dataset length (C50_split_partial)."
  },
  {
   "property": "C51",
   "status": "proved",
   "theorems": [
    "C51_sgd",
    "C51_adamw",
    "C51_adagrad",
    "C51_rmsprop",
    "C51_sgd_closed",
    "C51_moments_closed",
    "C51_unbiased",
    "C51_adagrad_sum",
    "C51_rmsprop_documented"
   ],
   "note": "Proved in every arithmetic for any number of parameters, elements and steps, also with changing learning rates; closed forms over the reals (Stdlib real-number axioms). Adagrad and RMSprop assume that adding a zero multiple changes nothing; both treat a weight decay that f32 rounds to zero as absent."
  },
  {
   "property": "C52",
   "status": "partial",
   "theorems": [
    "C52_code_partial",
    "C52_first_step_refuted",
    "C52_default_refuted",
    "C52_no_averaging_partial"
   ],
   "note": "REFUTED: Adam raises the betas to t+1 instead of t and applies the bias correction to the learning rate as well as to the moments; the first step is (1+b2)sqrt(1-b2)/((1+b1)^2(1-b1)) of the published one, below 1/5 with the defaults. C52_code_partial: exactly what it computes; C52_no_averaging_partial: right only if both betas are zero."
  },
  {
   "property": "C53",
   "status": "proved",
   "theorems": [
    "C53_names",
    "C53_step",
    "C53_last",
    "C53_removed",
    "C53_results",
    "C53_lookups",
    "C53_dependencies"
   ],
   "note": ""
  },
  {
   "property": "C54",
   "status": "partial",
   "theorems": [
    "C54_crash_refuted",
    "C54_reader_refuted",
    "C54_two_savers_refuted",
    "C54_single_saver_partial",
    "C54_quiet"
   ],
   "note": "REFUTED: save truncates the registry file before taking the lock, so a crash leaves an empty or cut file, a loader holding the shared lock can read an empty file, and with two saves at once a loader can read the tail of one save behind zero bytes. Proved part: with one save at a time the file is the old one or a beginning of the new one, the new one when save is done, and loaders get the old one, a beginning of it, or the new one."
  },
  {
   "property": "C55",
   "status": "proved",
   "theorems": [
    "C55_own_answer",
    "C55_request",
    "C55_ids",
    "C55_notifications"
   ],
   "note": ""
  },
  {
   "property": "C56",
   "status": "partial",
   "theorems": [
    "C56_never_recovers_refuted",
    "C56_in_step_partial"
   ],
   "note": "REFUTED: once a call times out or is cancelled while the plugin still answers every request, no later call ever succeeds: each takes the answer of an earlier request, fails with an id mismatch and leaves its own answer behind (C56_never_recovers_refuted, for every later history). Proved part: with no timeout or cancel, a call whose answer arrives in time returns it and leaves the connection in step."
  },
  {
   "property": "C57",
   "status": "partial",
   "theorems": [
    "C57_responses_partial",
    "C57_prefix",
    "C57_initialized",
    "C57_once",
    "C57_panic_refuted"
   ],
   "note": "REFUTED: a handler that panics ends the server with no response to its request (C57_panic_refuted). Proved part: with handlers that do not panic, exactly one response per non-empty line up to shutdown, in order, with the request's id; handlers run only after a successful initialize, which succeeds at most once."
  },
  {
   "property": "C58",
   "status": "partial",
   "theorems": [
    "C58_equivalence",
    "C58_versions",
    "C58_malformed_refuted"
   ],
   "note": "REFUTED: parts of a version that are not numbers are skipped, so malformed versions can be compatible with anything that reads the same without them. Proved: an equivalence on all strings; on well-formed versions exactly equal major (and minor below 1.0)."
  },
  {
   "property": "C59",
   "status": "proved",
   "theorems": [
    "C59_idempotent",
    "C59_case",
    "C59_cuda",
    "C59_cuda_number"
   ],
   "note": ""
  },
  {
   "property": "C60",
   "status": "partial",
   "theorems": [
    "C60_one_end",
    "C60_both_ends_refuted"
   ],
   "note": "REFUTED for a star at both ends: the second star is matched literally. Proved: agrees with glob matching for patterns without a star, with one leading star or with one trailing star."
  },
  {
   "property": "C61",
   "status": "partial",
   "theorems": [
    "C61_accepts",
    "C61_last_wins",
    "C61_loaded_partial",
    "C61_json_size_refuted"
   ],
   "note": "REFUTED: for JSON tensors the number of values is not checked against the shape and numbers are truncated to i32/u8\u2026, so a tensor of the wrong size is accepted. Proved: acceptance is exactly 'each argument well formed and loadable, each model input given', the last argument for a name wins, and loaded tensors have the declared shape and dtype (size right for HDT files)."
  },
  {
   "property": "C62",
   "status": "proved",
   "theorems": [
    "C62_transparent",
    "C62_finishes",
    "C62_stays"
   ],
   "note": ""
  },
  {
   "property": "C63",
   "status": "partial",
   "theorems": [
    "C63_lands",
    "C63_kernel_partial",
    "C63_order",
    "C63_scatter_partial",
    "C63_add_sum",
    "C63_scatter_add_refuted",
    "C63_layout_refuted",
    "C63_shape_refuted"
   ],
   "note": "REFUTED: on the CPU scatter_add, scatter_max and scatter_min all run the overwriting kernel (C63_scatter_add_refuted); a non-contiguous self and a source larger than self off the axis give wrong results. Proved: all four C kernels combine each position with exactly the source elements belonging to it, order irrelevance for commuting updates, and scatter at tensor level for contiguous self, rank up to 32."
  },
  {
   "property": "C64",
   "status": "partial",
   "theorems": [
    "C64_kernel_partial",
    "C64_metadata_refuted",
    "C64_orders_refuted",
    "C64_wrong_data_refuted"
   ],
   "note": "REFUTED: the metadata built for index_put is not in the order the kernel reads (C64_orders_refuted); [10,20,30].index_put(0,[0],[99]) reads out of bounds (C64_metadata_refuted). Proved: the C kernel on metadata in its documented order, first of duplicate indices wins."
  },
  {
   "property": "C65",
   "status": "partial",
   "theorems": [
    "C65_argmax_kernel_partial",
    "C65_argmax_u8_refuted",
    "C65_argmax_i64_refuted",
    "C65_argmax_f32_refuted"
   ],
   "note": "REFUTED: the kernel writes int32 indices into a buffer of the operand's dtype: overflow for 1/2-byte dtypes, merged indices for 8-byte dtypes, bit patterns for f32. Proved: the kernel itself finds the first maximum."
  },
  {
   "property": "C66",
   "status": "partial",
   "theorems": [
    "C66_any_bool_refuted",
    "C66_any_f32_refuted",
    "C66_any_u8_partial"
   ],
   "note": "REFUTED: the kernel writes one-byte booleans into a buffer of the operand's dtype (garbage for wider dtypes) and refuses BOOL operands. Proved for one-byte unsigned operands."
  },
  {
   "property": "C73",
   "status": "partial",
   "theorems": [
    "C73_result_partial",
    "C73_null_refuted",
    "C73_error"
   ],
   "note": "REFUTED: a handler returning unit (JSON null) makes the client fail with 'no result', since null and absent results are not told apart. Proved: every other returned value reaches the caller."
  },
  {
   "property": "C74",
   "status": "partial",
   "theorems": [
    "C74_sgd_partial",
    "C74_atomic_refuted",
    "C74_late_parameters_refuted",
    "C74_late_fails_partial",
    "C74_adam_partial"
   ],
   "note": "REFUTED: a failing step keeps the updates of the parameters before the failing one (and the step counter); Adam and AdamW silently skip parameters beyond those of the first step. Partial: exactly which prefix is updated (SGD); Adagrad and RMSprop never succeed with additional parameters; with the parameters of the first step a successful Adam step updates all."
  },
  {
   "property": "C75",
   "status": "partial",
   "theorems": [
    "C75_rmsprop_refuted",
    "C75_no_momentum_partial"
   ],
   "note": "REFUTED: RMSprop's struct documents m_t = mu m_{t-1} + lr g/(sqrt v + eps), the code multiplies lr afterwards; the two differ as soon as the learning rate changes with momentum. Partial: no difference without momentum; SGD, AdamW, Adagrad: see C51."
  },
  {
   "property": "C78",
   "status": "partial",
   "theorems": [
    "C78_partial",
    "C78_refuted"
   ],
   "note": "REFUTED: derive.rs L95-97 returns early with `?` from the loop, leaving IS_IN_OPTIMIZER_STEP set; from then on record_operation drops everything and backward() returns Ok without gradients (C78_refuted, for every error). Proved for step() and for successful zero_grad()."
  },
  {
   "property": "C79",
   "status": "partial",
   "theorems": [
    "C79_partial",
    "C79_refuted"
   ],
   "note": "REFUTED: gradients are stored while the tape is traversed, so those of operations handled before the failing one stay (C79_refuted). Proved: calls refused up front change nothing."
  },
  {
   "property": "C80",
   "status": "partial",
   "theorems": [
    "C80_partial",
    "C80_refuted"
   ],
   "note": "REFUTED: a successful backward() clears the whole tape of the context; backward() of any other loss then returns Ok and computes nothing (C80_refuted, for all tapes). Proved: computations in a context of their own leave the enclosing tape intact."
  },
  {
   "property": "C81",
   "status": "partial",
   "theorems": [
    "C81_partial",
    "C81_refuted"
   ],
   "note": "REFUTED: GradientContext::drop pops the top of the stack whatever it is; dropping the older of two contexts deactivates the younger and leaves a dead one active, so nothing is recorded (C81_refuted). Proved for reverse order; nested blocks in C41."
  },
  {
   "property": "C82",
   "status": "partial",
   "theorems": [
    "C82_partial",
    "C82_refuted"
   ],
   "note": "REFUTED: rem_scalar, leaky_relu, elu and prelu are not in the CPU dispatch list; they always panic (so do the LeakyReLU, ELU and PReLU modules). The other seven are proved to be served."
  },
  {
   "property": "C84",
   "status": "proved",
   "theorems": [
    "C84_reshape"
   ],
   "note": ""
  },
  {
   "property": "C85",
   "status": "partial",
   "theorems": [
    "C85_broadcast_partial",
    "C85_operand_partial",
    "C85_empty_refuted"
   ],
   "note": "REFUTED for broadcasts to an axis of size 0 (the gradient keeps the size 0). Proved for positive sizes, rank at most 16 (the reduction kernel's limit) and an exact addition (any commutative monoid)."
  },
  {
   "property": "C69",
   "status": "partial",
   "theorems": [
    "C69_onehot_partial",
    "C69_view_refuted",
    "C69_axis_refuted",
    "C69_wide_refuted"
   ],
   "note": "REFUTED: the indices are read from the start of the storage without their layout, so a view's onehot is wrong; an axis out of range is not rejected and the kernel reads an uninitialised coordinate; 64-bit indices are truncated to i32 (2^32 is taken as class 0). Proved for dense index tensors with i32 values, any class count, any axis in range, rank at most 31."
  },
  {
   "property": "C70",
   "status": "partial",
   "theorems": [
    "C70_nonzero_partial",
    "C70_rank_refuted"
   ],
   "note": "REFUTED: a tensor of more than 32 axes overruns the kernel's 32-entry index array. Proved for every view of rank at most 32."
  },
  {
   "property": "C71",
   "status": "partial",
   "theorems": [
    "C71_unique_partial",
    "C71_signed_refuted"
   ],
   "note": "REFUTED: signed integers are sorted by their (size_t) cast, so negative values come after positive ones ([-1, 1] gives [1, -1]). Proved for every key order that is a strict weak order agreeing with equality, given the qsort contract: values strictly increasing in the key, inverse and counts right, for every view. Missing: floats with NaN."
  },
  {
   "property": "C72",
   "status": "partial",
   "theorems": [
    "C72_flat_partial",
    "C72_axis_partial",
    "C72_view_refuted"
   ],
   "note": "REFUTED: the condition's storage is read and counted without its layout, so a condition view selects the wrong elements. Proved for dense conditions, any tensor view, with and without axis (rank at most 32 with an axis)."
  },
  {
   "property": "C86",
   "status": "partial",
   "theorems": [
    "C86_conv_partial",
    "C86_rejected",
    "C86_view_refuted",
    "C86_size_refuted",
    "C86_blas_computes",
    "C86_blas_partial",
    "C86_blas_refuted"
   ],
   "note": "REFUTED: convolutions ignore the strides of their operands (C86_view_refuted), a kernel larger than the padded input or a stride of zero panics (C86_size_refuted), and conv2d of f32/f64 writes the im2col buffer as [positions][weights] but hands it to gemm as weights x positions (C86_blas_refuted; C86_blas_computes says exactly what it returns). Proved: the full statement for operands stored in row-major order from any offset, for any number of axes and any arithmetic (C86_conv_partial); errors for wrong ranks and channels (C86_rejected); the BLAS path when there is one output position or one weight per output channel (C86_blas_partial)."
  },
  {
   "property": "C87",
   "status": "partial",
   "theorems": [
    "C87_transpose_partial",
    "C87_square_computes",
    "C87_rejected",
    "C87_layout_refuted",
    "C87_output_padding_refuted",
    "C87_size_refuted"
   ],
   "note": "REFUTED: the weight documented and checked as [out, in, kernel] is read as [in, out, kernel] (C87_layout_refuted), output_padding gives a result whose layout is larger than its storage (C87_output_padding_refuted), and 2*padding > (n-1)*stride panics although the output size is positive (C87_size_refuted). Proved: the statement with one input or one output channel and no output padding (C87_transpose_partial), what is computed when the channel counts agree (C87_square_computes), errors for wrong ranks and channels (C87_rejected)."
  },
  {
   "property": "C88",
   "status": "partial",
   "theorems": [
    "C88_conv_partial",
    "C88_conv_transpose_partial",
    "C88_sum_refuted",
    "C88_remainder_refuted",
    "C88_channels_refuted",
    "C88_blas_refuted"
   ],
   "note": "REFUTED: the gradient of a sum is a broadcast view, which the rule's convolutions read as dense storage, out of bounds (C88_sum_refuted); when the windows leave a remainder the input gradient is smaller than the input (C88_remainder_refuted); the rule of a transposed convolution with different channel counts is an error (C88_channels_refuted); the BLAS weight gradient of f32/f64 conv2d is wrong (C88_blas_refuted). Proved: both adjoint identities over the reals when the output gradient is dense and the windows are exact (C88_conv_partial), and for transposed convolutions with equal channel counts (C88_conv_transpose_partial)."
  },
  {
   "property": "C89",
   "status": "partial",
   "theorems": [
    "C89_in_bounds",
    "C89_nearest_partial",
    "C89_rejected",
    "C89_f32_refuted",
    "C89_empty_refuted"
   ],
   "note": "REFUTED: in binary32 the scale in/out is rounded before it is multiplied, and resize_nearest takes the wrong row (26 to 22 rows, row 11: C89_f32_refuted); an empty spatial axis is read from instead of rejected (C89_empty_refuted). Proved: in any arithmetic no read is out of bounds when the spatial axes are not empty (C89_in_bounds), the statement for exactly computed coordinates (C89_nearest_partial), errors for other ranks and sizes (C89_rejected)."
  },
  {
   "property": "C90",
   "status": "partial",
   "theorems": [
    "C90_linear_partial",
    "C90_cubic_partial",
    "C90_same_size_partial",
    "C90_range_partial",
    "C90_cubic3d_refuted",
    "C90_infinity_refuted",
    "C90_f64_refuted"
   ],
   "note": "REFUTED: cubic mode on 5-D tensors silently takes the nearest element (C90_cubic3d_refuted); resizing to the same size turns the neighbour of an infinity into NaN (C90_infinity_refuted) and rounds f64 values to f32 (C90_f64_refuted). Proved in exact arithmetic: linear for ranks 4 and 5, cubic for rank 4, the identity at the same size in every mode, and the range of linear interpolation."
  },
  {
   "property": "C91",
   "status": "partial",
   "theorems": [
    "C91_same_size_partial",
    "C91_upscale_refuted"
   ],
   "note": "REFUTED: the rule resizes the gradient back, which averages where the adjoint sums (C91_upscale_refuted, every mode). Proved: the adjoint identity when the size does not change (C91_same_size_partial)."
  },
  {
   "property": "C92",
   "status": "partial",
   "theorems": [
    "C92_softmax_partial",
    "C92_shift",
    "C92_axis_refuted",
    "C92_offset_refuted"
   ],
   "note": "REFUTED: an axis out of range panics instead of giving an error (C92_axis_refuted) and so does every contiguous view with an offset, e.g. a row of a matrix (C92_offset_refuted). Proved on the extended reals (no rounding) for every other view of rank up to 16: the formula, the range, the sum, the shift invariance."
  },
  {
   "property": "C93",
   "status": "partial",
   "theorems": [
    "C93_log_softmax_partial",
    "C93_nll_partial",
    "C93_cross_entropy_partial",
    "C93_class_axis_refuted"
   ],
   "note": "REFUTED: with the class axis not last, NLL (and so cross entropy) reads wrong positions, as the gather index is unsqueezed on the last axis (C93_class_axis_refuted). Proved on the extended reals for classes on the last axis."
  },
  {
   "property": "C94",
   "status": "partial",
   "theorems": [
    "C94_mse_partial",
    "C94_mae_refuted",
    "C94_huber_refuted",
    "C94_smooth_l1_refuted",
    "C94_cosine_refuted"
   ],
   "note": "REFUTED: MAE, Huber, smooth L1 and cosine embedding never return a value, whatever the input (C94_mae_refuted, C94_huber_refuted, C94_smooth_l1_refuted, C94_cosine_refuted): MAE divides by a U32 scalar and the others multiply a BOOL mask, which is always refused. MSE is proved on the extended reals."
  },
  {
   "property": "C95",
   "status": "partial",
   "theorems": [
    "C95_logits_partial",
    "C95_bce_refuted",
    "C95_kl_partial",
    "C95_kl_log_partial",
    "C95_kl_zero_refuted",
    "C95_kl_dtype_refuted"
   ],
   "note": "REFUTED: BCE does not depend on the prediction (C95_bce_refuted, from the inverted clamp of C25); KL divergence is NaN when a target probability is 0 (C95_kl_zero_refuted) and an error unless F32 (C95_kl_dtype_refuted). Proved on the extended reals: BCE with logits; KL for positive targets and for log targets."
  },
  {
   "property": "C96",
   "status": "partial",
   "theorems": [
    "C96_linear_partial",
    "C96_batch_axes_refuted"
   ],
   "note": "REFUTED: with BLAS (F32/F64) and two or more batch axes the batch entries are permuted (C96_batch_axes_refuted, from C36). Proved in exact arithmetic for up to 2 leading axes with BLAS and up to 17 without, for every layout but contiguous views with an offset."
  },
  {
   "property": "C97",
   "status": "proved",
   "theorems": [
    "C97_rnn_step",
    "C97_lstm_step",
    "C97_gru_step",
    "C97_rnn",
    "C97_gru",
    "C97_lstm"
   ],
   "note": "Exact arithmetic (no rounding), eager mode; initialisation of the parameters is not modelled."
  },
  {
   "property": "C98",
   "status": "proved",
   "theorems": [
    "C98_layer_norm",
    "C98_layer_norm_no_axes",
    "C98_layer_norm_shape",
    "C98_rms_norm",
    "C98_instance_norm",
    "C98_group_norm",
    "C98_centred"
   ],
   "note": ""
  },
  {
   "property": "C83",
   "status": "partial",
   "theorems": [
    "C83_training_partial",
    "C83_evaluation_partial",
    "C83_rank4_refuted"
   ],
   "note": "REFUTED: BatchNorm1D in evaluation mode accepts input of rank 4, which it rejects in training, and takes axis 2 for the channels (C83_rank4_refuted, for every such input). The formulas hold for the documented ranks (C83_training_partial, C83_evaluation_partial)."
  },
  {
   "property": "C68",
   "status": "partial",
   "theorems": [
    "C68_training_partial",
    "C68_evaluation",
    "C68_one_refuted",
    "C68_zero_refuted",
    "C68_dtype_refuted"
   ],
   "note": "REFUTED: p = 1 returns NaN everywhere (0 times 1/0); p = 0 still drops an entry whose draw is exactly 0, a possible value of Uniform[0,1), since the test is draw > p; every dtype but F32 is an error in training, since the scale is an f32 scalar. Proved: the formula for F32 and p <> 1, and the identity in evaluation."
  },
  {
   "property": "C99",
   "status": "partial",
   "theorems": [
    "C99_attention_partial",
    "C99_weights",
    "C99_between",
    "C99_mask_refuted",
    "C99_dtype_refuted",
    "C99_batch_axes_refuted"
   ],
   "note": "REFUTED: with any mask, or with causal = true, every entry of the result is NaN (masked_fill is mask * x + (1 - mask) * fill with fill = -inf, so every score becomes -inf or NaN); tensors whose dtype is not that of an f64 scalar are an error, so F16 and BF16 always are, and F32 with the feature f64; with BLAS and two batch axes the batches are exchanged. Proved: the formula without a mask, with dropout, over at most one batch axis with BLAS and fourteen without; the weights are positive and sum to 1."
  },
  {
   "property": "C77",
   "status": "partial",
   "theorems": [
    "C77_multihead_partial",
    "C77_batch_axes_refuted"
   ],
   "note": "REFUTED: with BLAS, which F32 and F64 use, the batched product over (sample, head) exchanges samples and heads: with two samples and two heads the output of one sample contains the values of the other. Proved: the formula without a mask when the products do not go to BLAS. The masked case is C99."
  },
  {
   "property": "C67",
   "status": "partial",
   "theorems": [
    "C67_lookup_partial",
    "C67_out_of_range_refuted",
    "C67_max_norm_partial",
    "C67_max_norm_bound",
    "C67_max_norm_wide_refuted",
    "C67_max_norm_one_refuted",
    "C67_padding_refuted",
    "C67_offset_refuted"
   ],
   "note": "REFUTED: without options the lookup is right for every index tensor that does not start inside its storage (C67_lookup_partial). But an index out of range gives a row of zeros instead of the error the source comment promises (embedding.rs L97-99); a slice of an index tensor that starts inside its storage reads the wrong indices (C67_offset_refuted, as in C18); a padding_idx makes every call fail, because handle_padding_idx (L147-170) calls where3 on a boolean mask, whose subtraction is refused; and apply_max_norm (L126-130) uses the size of the last axis minus one as the axis, so it panics for rows of length 3 or more, scales by the norm of the whole batch for length 1, and is right only for length 2 (C67_max_norm_partial)."
  },
  {
   "property": "C76",
   "status": "partial",
   "theorems": [
    "C76_avg",
    "C76_max",
    "C76_adaptive_avg_partial",
    "C76_adaptive_max_partial",
    "C76_adaptive_avg_windows",
    "C76_adaptive_max_windows",
    "C76_adaptive_covers",
    "C76_adaptive_windows_refuted",
    "C76_adaptive_longer_refuted",
    "C76_adaptive_empty_refuted",
    "C76_global_avg",
    "C76_global_max",
    "C76_fractional_partial",
    "C76_fractional_blocks",
    "C76_fractional_round",
    "C76_rank"
   ],
   "note": "REFUTED: adaptive pooling uses windows of one size, L - (o-1) floor(L/o), floor(L/o) apart, which are not the windows from floor(pL/o) to ceil((p+1)L/o) unless o divides L (L = 5, o = 3: the first mean takes three entries, not two); an output longer than the input, or of length 0, panics instead of working or giving an error. Proved: average, max and global pooling for any number of axes; adaptive pooling when o divides L, its actual windows otherwise and that they cover the axis; fractional max pooling when the rounded cut points rise (a parameter: the float rounding of alpha*i; exact rounding satisfies it), and that its blocks partition the axis; the rank check. On the reals, rounding is not modelled."
  },
  {
   "property": "C100",
   "status": "partial",
   "theorems": [
    "C100_small",
    "C100_large_partial",
    "C100_dominant_partial",
    "C100_small_column_refuted",
    "C100_zero_column_refuted",
    "C100_integers_partial",
    "C100_integers_refuted",
    "C100_empty_refuted",
    "C100_not_square"
   ],
   "note": "REFUTED: from 4x4 on F32 and F64 give 0 whenever the best pivot is below 1e-15 (diag(1e-16,1e16,1,1) has determinant 1), the other float types give NaN instead of 0 for a zero pivot, integers divide with the remainder dropped (wrong number) or divide by zero (undefined), and an empty stack is read outside its storage. Proved: every size up to 3x3 in floats and, modulo 2^w, in integers; any size of F32/F64 gives the determinant or 0; other floats with nonzero determinant are exact; diagonally dominant columns are exact. Rounding is not modelled."
  },
  {
   "property": "C101",
   "status": "partial",
   "theorems": [
    "C101_inverse",
    "C101_solve_partial",
    "C101_solve_vector",
    "C101_batched_vector_refuted",
    "C101_integers_refuted",
    "C101_empty_refuted"
   ],
   "note": "REFUTED: solve takes batched vectors [..., N] for a matrix (shape [n,n] against [n,n,n] gives [n,n,n]); integer inverses drop remainders or divide by zero; an empty stack is read outside its storage. Proved: float inverses of all stacks, with no finite entry for singular matrices; solve with matrix right-hand sides of the same batch axes and with one vector. Rounding is not modelled."
  },
  {
   "property": "C102",
   "status": "partial",
   "theorems": [
    "C102_trace",
    "C102_empty_refuted"
   ],
   "note": "REFUTED: an empty stack is read outside its storage (undefined). Proved for every stack without an empty batch axis. Rounding is not modelled."
  },
  {
   "property": "C103",
   "status": "partial",
   "theorems": [
    "C103_det_partial",
    "C103_det_singular_refuted",
    "C103_inverse",
    "C103_trace_partial",
    "C103_trace_batch_refuted",
    "C103_single_refuted"
   ],
   "note": "REFUTED: the gradient of a single N x N matrix's determinant or trace has shape [1,N,N]; the gradient of a singular matrix's determinant is all NaN (it exists); in a batch of traces every matrix gets the incoming gradient of the first one. Proved: determinants of batches of nonsingular matrices, inverses of all stacks, traces with equal incoming gradients. Rounding is not modelled."
  },
  {
   "property": "C104",
   "status": "partial",
   "theorems": [
    "C104_product_partial",
    "C104_blas_refuted"
   ],
   "note": "REFUTED: with BLAS enabled, an incoming gradient that is itself a broadcast view (as the gradient of a sum is) is read behind its storage, as in C36 (C104_blas_refuted). Proved (C104_product_partial): the rules give the derivative, in the operand's shape, for matrices and for broadcast stacks with at most one batch axis where BLAS is used and at most 14 otherwise, for gradients stored contiguously or read by the plain kernel. Vector operands of matmul go through the reshape rules and are not stated here."
  },
  {
   "property": "C105",
   "status": "partial",
   "theorems": [
    "C105_tape",
    "C105_gradient",
    "C105_flow_partial",
    "C105_linear_refuted",
    "C105_transposed_sum_refuted"
   ],
   "note": "REFUTED: a view of a non-contiguous tensor is a view of a copy made by contiguous(), which does not require a gradient and is not recorded, so everything before the copy silently gets none: the weight of nn Linear on an input with three axes (C105_linear_refuted), and a transposed tensor added to another (C105_transposed_sum_refuted). Proved: the tape connects, and backward gives a gradient to, exactly the tensors reached along operands that are not copied (C105_tape, C105_gradient); if no operand is copied all receive one and backward succeeds (C105_flow_partial)."
  },
  {
   "property": "C106",
   "status": "partial",
   "theorems": [
    "C106_concat_partial",
    "C106_split_partial",
    "C106_flip_partial",
    "C106_cumsum_partial",
    "C106_negative_axis_refuted",
    "C106_broadcast_refuted",
    "C106_rest_refuted",
    "C106_empty_refuted"
   ],
   "note": "REFUTED: concat and split record a negative axis as given and their rules read it as axis 0, giving wrong shapes or an error (C106_negative_axis_refuted); a broadcast gradient, as that of a sum, is read behind its storage by the rules of flip, cumsum and split (C106_broadcast_refuted); pieces leaving a rest give a gradient of the wrong shape (C106_rest_refuted); an empty last operand of concat makes the rule fail (C106_empty_refuted). Proved: outside these cases, and up to rank 16, the rules are the adjoints."
  },
  {
   "property": "C107",
   "status": "partial",
   "theorems": [
    "C107_gather_partial",
    "C107_select_partial",
    "C107_scatter_partial",
    "C107_scatter_add_partial",
    "C107_topk_partial",
    "C107_slice_partial",
    "C107_slice_back_partial",
    "C107_repeated_refuted",
    "C107_negative_axis_refuted",
    "C107_second_axis_refuted",
    "C107_slice_fails_refuted",
    "C107_scatter_repeated_refuted",
    "C107_scatter_max_refuted",
    "C107_index_put_refuted"
   ],
   "note": "REFUTED: scatter_add runs the overwriting kernel, so an element gathered twice gets only its last gradient (C107_repeated_refuted); a negative axis is read as axis 0 (C107_negative_axis_refuted); index_select and slice along any axis but the first get wrong gradients or read behind the index list (C107_second_axis_refuted, C107_slice_fails_refuted); scatter with two sources for one position (C107_scatter_repeated_refuted); scatter_max/min count the gradient of self twice (C107_scatter_max_refuted); index_put panics (C107_index_put_refuted). Proved: the rules are the adjoints for gather, scatter, and topk with a non-negative axis and no position named twice, for index_select and slice along the first axis, and for scatter_add as documented."
  },
  {
   "property": "C108",
   "status": "partial",
   "theorems": [
    "C108_prod_partial",
    "C108_var_partial",
    "C108_std_partial",
    "C108_logsum_partial",
    "C108_logsumexp_partial",
    "C108_max_partial",
    "C108_min_partial",
    "C108_norm_partial",
    "C108_norm_refuted",
    "C108_logsumexp_refuted",
    "C108_max_refuted",
    "C108_std_refuted"
   ],
   "note": "REFUTED: norm(p) casts p to an integer, so norm(1.5) is the 1-norm of the row; logsumexp of a row containing +inf is NaN (inf - inf); max and min keep a NaN when it comes last and drop it when it comes first; std in f32 of three copies of 1.7 is NaN because the variance, computed as mean of squares minus squared mean, comes out negative. Proved on the reals: prod, var, std, logsum (positive sum), logsumexp, max and min of finite entries, and norm for p at most 1, equal to 2, or at least 3. Missing: rounding."
  },
  {
   "property": "C109",
   "status": "partial",
   "theorems": [
    "C109_prod_partial",
    "C109_norm_partial",
    "C109_var_partial",
    "C109_std_partial",
    "C109_logsum_partial",
    "C109_logsumexp_partial",
    "C109_max_partial",
    "C109_min_partial",
    "C109_ties",
    "C109_prod_refuted",
    "C109_var_shape_refuted",
    "C109_var_refuted",
    "C109_axis_refuted"
   ],
   "note": "REFUTED: the gradient of prod at every zero entry is NaN (result / entry) instead of the product of the other entries; var and std take the mean without keep_dim, so with keep_dim along an axis that is not leading they fail with a shape error or, when the shape fits, use the means of other rows (the entry 2 of [[0,2],[10,30]] gets -18 instead of 1); without keep_dim every rule broadcasts result and gradient along the wrong axis unless the reduced axes lead (prod along the rows of the same matrix gives the entry 10 a gradient of 0 instead of 30). Proved: each rule is the derivative when keep_dim is set or the reduced axes lead (var and std: lead), for non-zero entries (prod), non-zero rows (norm), positive variance (std), positive sums (logsum) and no ties (max, min); with ties max gives the largest entries equal shares adding up to the gradient. Missing: rounding and overflow."
  },
  {
   "property": "C110",
   "status": "partial",
   "theorems": [
    "C110_unary_partial",
    "C110_neg_partial",
    "C110_binary",
    "C110_reduce",
    "C110_sum_partial",
    "C110_norm_partial",
    "C110_var_partial",
    "C110_max_partial",
    "C110_min_partial",
    "C110_neg_refuted",
    "C110_rounding_refuted",
    "C110_nan_refuted"
   ],
   "note": "REFUTED: the negative of +0 is +0 in the vector lanes (0 - x) and -0 in the remainder, at an offset and in strided views (ops_unary.c L450-494, simd_utils.h L127-129, L192); the f32 sum of 2^24 and seven ones is 2^24 + 6 on four lanes and 2^24 in the scalar loop, so the sum of a view differs from that of its copy (ops_reduce.c L189-213); the maximum of 9, 2, NaN, 3 is 9 on four lanes and 3 in the scalar loop. Proved: with equal lane operations the unary and binary vector kernels equal the scalar ones for every width, size and layout; the reductions do for every combination independent of order (sum, norm and var over the extended reals, max and min over floats other than NaN and -0), on AVX2, SSE2 and NEON. Not modelled: NEON division, which is an estimate, and NEON max of NaN."
  },
  {
   "property": "C111",
   "status": "partial",
   "theorems": [
    "C111_constant",
    "C111_circular_partial",
    "C111_replicate_partial",
    "C111_replicate_refuted",
    "C111_reflect_refuted",
    "C111_circular_refuted",
    "C111_corners_refuted"
   ],
   "note": "REFUTED: the sum of two tensors keeps the layout of the first (binary.rs L66), so adding to a slice that starts inside its storage is read at the wrong place: replicate padding before the first axis or after any axis, reflect padding on either side (after an axis also because flip ignores where its operand starts) and circular padding before an axis give wrong gradients or panic (vjp_padding.rs L86-134, L158-184, L209-216); the parts are taken at the centre of the other axes, so with two padded axes the corners are left out (L254-265); circular padding by more than the axis panics before it and returns a gradient of another shape after it (L211, L231-233); an axis of size 1 gets no share of reflect padding (L86, L110). Proved: the rule of constant padding in general; circular padding after one axis by at most its size and replicate padding before one axis other than the first."
  },
  {
   "property": "C112",
   "status": "partial",
   "theorems": [
    "C112_sum_partial",
    "C112_mean_partial",
    "C112_max_partial",
    "C112_min_partial",
    "C112_overlap_refuted",
    "C112_windows_refuted",
    "C112_ties_refuted",
    "C112_offset_refuted"
   ],
   "note": "REFUTED: the rule repeats the incoming gradient by the stride and broadcasts it to the shape of the operand (vjp_windowing.rs L41-73, L90-108, L123-141); with overlapping windows and no padding it fails for every operand; strides larger than the window give gradients to entries of no window; with padding (the usual same pooling) the gradient is shifted and not summed; entries after the last window make it fail. On ties max and min give every entry the whole gradient (L76-81). An operand that starts inside its storage makes the rule of max and min panic. Proved: sum and mean as adjoints and max and min without ties, in general rank, for windows that tile the operand (no padding, stride equal to the window, no remainder, or one window with stride 1)."
  },
  {
   "property": "C113",
   "status": "partial",
   "theorems": [
    "C113_rule_partial",
    "C113_calls",
    "C113_summed_refuted",
    "C113_blind_refuted",
    "C113_matmul_refuted",
    "C113_repeated_refuted"
   ],
   "note": "REFUTED: vjp_einsum.rs builds for operand i the equation \"result,others->operand i\". A label that occurs only in operand i (\"ij->i\") is then not in the new inputs and the rule is an error, for all operands (C113_summed_refuted). With one operand the gradient does not depend on the incoming gradient, because the call passes the layouts of the tail only (C35) (C113_blind_refuted). The gradients of \"ij,jk->ik\" are wrong for the same reason (C113_matmul_refuted). A repeated label (\"ii->i\") gives \"i->ii\", which fills the rows and not the diagonal (C113_repeated_refuted). Proved (partial): for operands without repeated labels, each in the result or another operand, the equation of the rule is accepted, names the operand's shape, and the kernel given the layouts of all operands computes the adjoint (C113_rule_partial)."
  },
  {
   "property": "C114",
   "status": "partial",
   "theorems": [
    "C114_read",
    "C114_nearest_partial",
    "C114_roundtrip_partial",
    "C114_bf16_roundtrip",
    "C114_bf16_partial",
    "C114_bf16_refuted",
    "C114_bf16_nan_refuted",
    "C114_carry_refuted",
    "C114_subnormal_refuted",
    "C114_f8_subnormal_refuted",
    "C114_overflow_refuted",
    "C114_ties_refuted"
   ],
   "note": "REFUTED: float_to_bf16 drops the lower half of the bits, so every number in the upper half of a step has a strictly nearer code (C114_bf16_refuted), and a NaN with its payload in the lower half becomes an infinity (C114_bf16_nan_refuted). float_to_f16 makes every number below 2^-14 zero, so no subnormal code survives being read and written (C114_subnormal_refuted); the 8-bit ones compute the subnormal mantissa wrongly, and a negative one sets all upper bits, so that the least subnormals become NaN (C114_f8_subnormal_refuted). The mantissa is cut off at its maximum instead of being carried, so just below each power of two a nearer code exists (C114_carry_refuted). Overflow in the 8-bit formats gives NaN, in f8e4m3 from 256 on although the limit is stated as 448, and the codes of 256 to 448 are read as infinity or NaN; 65505 becomes infinite in f16 (C114_overflow_refuted). The sign of zero is lost and ties go away from zero (C114_ties_refuted). Proved: reading is by IEEE 754 for every code (C114_read), every normal code and every bf16 code round-trips, and numbers in the normal range that do not round to the next power of two go to a nearest code (C114_nearest_partial, C114_roundtrip_partial, C114_bf16_roundtrip). Floats are Coq.Floats.SpecFloat; frexpf and ldexpf are SFfrexp and SFldexp."
  },
  {
   "property": "C115",
   "status": "partial",
   "theorems": [
    "C115_saturates",
    "C115_sizes",
    "C115_dtype",
    "C115_back",
    "C115_monotone",
    "C115_bool",
    "C115_from_partial",
    "C115_from_refuted",
    "C115_into_partial",
    "C115_into_refuted"
   ],
   "note": "REFUTED: Scalar::from_usize, from_isize (scalar.rs L310-361) cut instead of saturating (300 as U8 is 44, to_dtype gives 255), and From<usize>, From<isize> (L1139-1144, L1188-1193) build a U32 or I32 from the low 32 bits, so Scalar::from(1usize << 32) is 0. Proved in full: all ten conversions to integers (to_u8 ... to_isize), to_dtype with integer target and to_bool. The conversions of the 16- and 8-bit floats appear as binary32 values; conversions to floats are not part."
  },
  {
   "property": "C116",
   "status": "partial",
   "theorems": [
    "C116_exact_partial",
    "C116_valid",
    "C116_wraps_partial",
    "C116_mixed_refuted",
    "C116_overflow_refuted",
    "C116_bool_refuted",
    "C116_powi_partial",
    "C116_powi_refuted",
    "C116_sqrt_partial",
    "C116_sqrt_refuted"
   ],
   "note": "REFUTED: overflow panics in debug builds and wraps in release builds, operands of different types panic, MIN % -1 panics although its result is 0, booleans have 1 % 1 = 1 and 1 / 0 = 0, powi with a negative exponent reads it as at least 2^31, sqrt of integers goes through f32 (sqrt of 4294967295 is 65536). Proved: exact when the result fits (both builds), results always of the type, wrapping is modulo 2^w, powi exact for exponents that are not negative, sqrt exact for u8 and i8. Float remainder is not modelled."
  },
  {
   "property": "C117",
   "status": "partial",
   "theorems": [
    "C117_int_partial",
    "C117_bool",
    "C117_float_partial",
    "C117_refuted"
   ],
   "note": "REFUTED: the kernels cut (300 to u8 is 44, 200 to i8 is -56) where scalars saturate (255, 127), and a float out of range, NaN and infinities are undefined behaviour of C. Proved: equal when the number fits, and the cast of a float is defined exactly then."
  },
  {
   "property": "C118",
   "status": "partial",
   "theorems": [
    "C118_exact_partial",
    "C118_modular_partial",
    "C118_defined_partial",
    "C118_undefined_refuted",
    "C118_saturation_refuted",
    "C118_pow_partial",
    "C118_pow64_partial",
    "C118_pow_refuted",
    "C118_pow_scalar_partial",
    "C118_pow_scalar_refuted",
    "C118_unary_partial",
    "C118_root_partial",
    "C118_root_refuted"
   ],
   "note": "REFUTED: the product and square of u16 are computed as int and undefined from 2^31 on (65535 * 65535), sums, products, quotients and negations of i32 and i64 that do not fit are undefined; unsigned differences saturate while sums wrap; a division by zero gives 0; the magnitude of -128 is -128; powers of i64 are undefined although they fit (2^32), because the loop squares once too often; 1^-1 is 0; pow_scalar goes through float (4097^2 = 16785408, undefined when the result does not fit); the root of a negative number is that of its magnitude, and that of the largest u32 or u64 is one too large. Proved: results that fit are exact (all operations, all types; powers of i8, i16, i32), results modulo 2^w where defined, where they are defined, the exact domain of the i64 power; root and reciprocal of 8-bit integers."
  },
  {
   "property": "C119",
   "status": "partial",
   "theorems": [
    "C119_logic",
    "C119_right",
    "C119_left_partial",
    "C119_shift_refuted"
   ],
   "note": "REFUTED: left shifts of negative numbers, into the sign bit of i32 or i64, and by the width or more are undefined in C. Proved: and, or, xor, not for all operands, right shifts, left shifts of all unsigned operands and of all others whose result fits."
  },
  {
   "property": "C120",
   "status": "partial",
   "theorems": [
    "C120_save_load_partial",
    "C120_finite_iff_partial",
    "C120_many_partial",
    "C120_infinity_refuted",
    "C120_slice_refuted"
   ],
   "note": "REFUTED: NaN and infinities are written as null, which loading refuses (format/json.rs L216-219 and L356-360), so such a tensor cannot be loaded again; of a slice the whole parent is written (C12) and refused for its length. Proved: a tensor without NaN and infinities that fills its storage or starts at its beginning is restored exactly for all 15 dtypes, alone and in a collection, and exactly these can be loaded. The text layer of serde_json is taken to be exact (without its feature float_roundtrip a f64 may be off by one unit in the last place); from_f32 of the crate float8 is assumed to keep numbers of its format (an instance is given)."
  },
  {
   "property": "C121",
   "status": "partial",
   "theorems": [
    "C121_load_partial",
    "C121_no_panic_partial",
    "C121_range_refuted",
    "C121_size_refuted"
   ],
   "note": "REFUTED: an integer outside the dtype is cut to its width (300 is loaded as the u8 44, -200 as the i8 56; L423-500), and sizes whose product leaves 64 bits wrap around: [2^32, 2^32] with no data is accepted as a tensor (with overflow checks the program panics). Proved: shape, dtype and number of elements are the stated ones, entries in range are kept, floats are rounded to nearest, everything else is refused, and without overflow checks nothing panics."
  },
  {
   "property": "C122",
   "status": "partial",
   "theorems": [
    "C122_display_partial",
    "C122_debug_partial",
    "C122_empty_refuted",
    "C122_slice_refuted"
   ],
   "note": "REFUTED: a tensor such as [0,3] panics when printed, since the length of a row is divided by a size of zero (display.rs L272); of a slice the first elements of the parent are shown instead of its own (display.rs prints the storage by shape, after C12). Proved: a tensor that fills its storage is shown with every visible element at its place and bracket depth exactly if no axis but the first is empty, and panics otherwise."
  },
  {
   "property": "C123",
   "status": "partial",
   "theorems": [
    "C123_arange_partial",
    "C123_large_refuted",
    "C123_double_refuted",
    "C123_end_refuted",
    "C123_special_refuted"
   ],
   "note": "REFUTED: the sequence is computed in f32 (creation.rs L199-251): arange(16777217, 16777218) of i32 is [16777216, 16777216], the range 16777216..16777217 is refused, an f64 start is rounded to f32, 0.0..4.9 by 0.7 includes the end, a NaN step gives an empty tensor and an infinite end panics. Proved: for integers of at most 24 bits, in any mix of bool, integer, f32 and f64, the result is exactly the sequence, and everything else is refused with an error."
  },
  {
   "property": "C124",
   "status": "partial",
   "theorems": [
    "C124_length",
    "C124_linspace_partial",
    "C124_end_refuted",
    "C124_large_refuted"
   ],
   "note": "REFUTED: the last element is start + (steps-1) * step in f32 (creation.rs L253-300): 42 steps from 0 to 1 end below 1, and as integers in 0; ends above 24 bits are rounded. Proved: there are always as many elements as steps, and for integers of at most 24 bits whose difference steps-1 divides the elements are the evenly spaced integers from start to end."
  },
  {
   "property": "C125",
   "status": "partial",
   "theorems": [
    "C125_accepted",
    "C125_runs_partial",
    "C125_panics_refuted",
    "C125_errors_refuted"
   ],
   "note": "REFUTED: the remainder (rem, rem_scalar) has no kernel for any type, leaky_relu, elu and prelu none for floats, relu none for signed integers although validation accepts them (ops_binary.rs L174-191, ops_unary.rs L307-328): the dispatch panics. argmax, argmin, any and all of f64 run their kernel and then panic, since the second list of dispatch_reduce (ops_reduce.rs L230-380) lacks the four f64 names; on booleans, which validation accepts, the storage call has no arm and fails. Proved: these are the only failures; validation accepts exactly the sorts of elements an operation is made for."
  },
  {
   "property": "C126",
   "status": "partial",
   "theorems": [
    "C126_join_partial",
    "C126_inputs_partial",
    "C126_dry_run",
    "C126_clean_all",
    "C126_clean_cache",
    "C126_clean_backend_partial",
    "C126_install_partial",
    "C126_remove_partial",
    "C126_clean_refuted",
    "C126_manifest_refuted",
    "C126_inputs_refuted",
    "C126_shared_refuted"
   ],
   "note": "REFUTED: names are joined to directories unchecked. `hodu clean --backend ..` removes ~/.hodu (plugins and registry), `--backend /x` removes /x, `--backend \"\"` the caches of all backends (clean.rs L39-41). A manifest name with .. or an absolute one has the plugin's files written anywhere, and removing a plugin with an empty name removes all plugins (install.rs L375, plugin.rs L526-531). Runtime::run keeps its inputs in one directory shared by all processes and named only by the input: equal names, x and ./x, and another run overwrite each other, and .. leaves the directory (runtime.rs L150-157). Proved for names that are one component: joins, inputs with different slash-free names, clean (what exactly is removed, nothing in a dry run), install and remove. Not modelled: symbolic links, missing directories, Windows."
  },
  {
   "property": "C127",
   "status": "partial",
   "theorems": [
    "C127_backend",
    "C127_formats_partial",
    "C127_sound_partial",
    "C127_refuted",
    "C127_identity"
   ],
   "note": "REFUTED: parse_manifest gives a plugin one type. A plugin that declares loading of models and of tensors is never used for tensors, a backend never for formats it declares, and a plugin that declares nothing is taken to load models (install.rs L491-534). Proved: run and build are offered exactly if declared, model formats without backend capabilities, tensor formats without both, nothing undeclared is offered when anything known is declared."
  },
  {
   "property": "C128",
   "status": "partial",
   "theorems": [
    "C128_enabled",
    "C128_build",
    "C128_convert",
    "C128_run_partial",
    "C128_run_refuted",
    "C128_cuda_refuted"
   ],
   "note": "REFUTED: `hodu run` takes the first backend for the device without looking at its capability to run (run.rs L427), and any plugin given by name, a format even (L416-419); run and build let a plugin read the model that only declares writing; convert takes the first plugin for the extension and fails though a second could do it; a backend that declares cuda is never found since the command line asks for cuda::0. Proved: what is started is installed and enabled, build starts only builders and finds one for the device if there is one, convert starts only plugins with the capability, run by device starts a backend for the device."
  },
  {
   "property": "C129",
   "status": "partial",
   "theorems": [
    "C129_check_partial",
    "C129_latest_partial",
    "C129_major_minor",
    "C129_update_partial",
    "C129_latest_refuted",
    "C129_check_refuted",
    "C129_update_refuted"
   ],
   "note": "REFUTED: the first listed compatible version is taken, not the newest (install.rs L116, L145); a version for a lower minor is refused here though the later check accepts it; a version asked for is not filtered; versions that do not parse to two numbers are not checked (L337); update replaces a newer version by the listed one and a local plugin by the official one of the same name (update.rs L58-64), and every reinstalled plugin is enabled again (install.rs L428). Proved: the check for versions of three numbers, that the first compatible listed version is taken and is the newest if the list is sorted, and what update leaves unchanged. Not modelled: fetching, git, cargo."
  },
  {
   "property": "C130",
   "status": "partial",
   "theorems": [
    "C130_name_partial",
    "C130_refuted"
   ],
   "note": "REFUTED: a comment after the name becomes part of it, a comment after [package] hides the section, a key that begins with name is read as the name (install.rs L559-571). Proved for a line name = \"x\" with a name that cargo allows, whatever is before and after it. Unicode blanks are not modelled."
  },
  {
   "property": "C131",
   "status": "partial",
   "theorems": [
    "C131_order_partial",
    "C131_sum",
    "C131_extreme",
    "C131_returns",
    "C131_f8_refuted"
   ],
   "note": "REFUTED: the eight bit floats compare and swap sixteen bits at offset (addr & 2) (atomic.cuh L8-36): adding to address 1 overwrites element 0 and leaves in element 1 a byte read behind the local sum. Proved for the other types under every schedule: the calls take effect in some order, each on its own element only (sums and extremes of integers therefore exact), and a thread that moves more often than there are threads has returned. Memory is sequentially consistent per word, one step per read or compare-and-swap; relaxed ordering between words and spurious hardware behaviour are not modelled; float arithmetic is a parameter."
  },
  {
   "property": "C132",
   "status": "partial",
   "theorems": [
    "C132_batched_partial",
    "C132_rounds",
    "C132_ends",
    "C132_dot_unwritten_refuted",
    "C132_dot_litter_refuted",
    "C132_f64_refuted",
    "C132_large_refuted"
   ],
   "note": "REFUTED: the kernel dot, which multiplies two matrices, is launched with 8 by 8 threads for tiles of 32 by 32: rows and columns beyond the first eight of each 32 are never written, and the products that are written take in whatever lay in shared memory (C132_dot_unwritten_refuted, C132_dot_litter_refuted). Both kernels compute in f32 whatever the element type (C132_f64_refuted), and more than 65535 batches or 1048560 rows are refused by the driver (C132_large_refuted). Proved: under every schedule that comes to its end the batched product is the product of the matrices, whatever lay in shared memory and the output buffer (C132_batched_partial); every schedule can be brought to an end and only boundedly many moves change anything (C132_ends); moving the threads in turn ends (C132_rounds). Threads move one at a time between shared memory accesses; the multiplication of one step is a parameter, so contraction to a fused product is covered if its law holds; of the padding it is asked that adding zero times zero changes nothing, which fails only for the sign of a zero."
  },
  {
   "property": "C133",
   "status": "partial",
   "theorems": [
    "C133_once_partial",
    "C133_each_partial",
    "C133_ends_partial",
    "C133_turns",
    "C133_many_refuted",
    "C133_binary_partial",
    "C133_unary_partial",
    "C133_far_refuted"
   ],
   "note": "REFUTED: counters have 32 bits. For more than 2^32 - 256 elements the threads never return; between 2^31 and there some elements are worked on twice, which is wrong where they are added up; the kernels that use their thread number once miss the last elements of 2^32 or more (C133_many_refuted). A small view that begins beyond element 2^32 of its storage reads other elements, since its position is cut to 32 bits (C133_far_refuted). Proved within those bounds, under every schedule: each element exactly once (C133_once_partial), at least once (C133_each_partial), the threads end (C133_ends_partial), and unary, cast, copy and binary kernels give the function of the elements (C133_unary_partial, C133_binary_partial)."
  },
  {
   "property": "C134",
   "status": "partial",
   "theorems": [
    "C134_to_device_partial",
    "C134_to_device_reads",
    "C134_dtype_cpu_partial",
    "C134_dtype_gpu_partial",
    "C134_to_device_refuted",
    "C134_storage_from",
    "C134_dtype_gpu_refuted",
    "C134_dtype_cpu_refuted"
   ],
   "note": "REFUTED: Tensor::to_device hands the storage the row-major layout of the shape instead of the layout of the tensor (cast_memory.rs:46), so a transposed, sliced or broadcast tensor arrives with other elements, or with fewer than its shape has, even from the CPU to the CPU (C134_to_device_refuted; C134_to_device_reads says what it gives in every case). CudaStorage::contiguous and MetalStorage::contiguous take a contiguous storage as it is without looking at the offset (be_cuda/storage.rs:678, be_metal/storage.rs:567), so to_dtype with the type a slice has gives the elements at the start of the storage (C134_dtype_gpu_refuted). On the CPU a tensor without axes further on in its storage is read at the start (C134_dtype_cpu_refuted). Proved: to_device of tensors contiguous from the start of their storage; to_dtype on the CPU for all others; to_dtype on the other devices when the tensor is not contiguous or starts at 0, within the 32-bit limits of C133, under every schedule."
  },
  {
   "property": "C135",
   "status": "partial",
   "theorems": [
    "C135_select_partial",
    "C135_gather_partial",
    "C135_scatter_partial",
    "C135_scatter_some",
    "C135_scatter_rest_refuted",
    "C135_scatter_race_refuted",
    "C135_scatter_offset_refuted",
    "C135_select_range_refuted",
    "C135_put_refuted",
    "C135_rank_refuted"
   ],
   "note": "REFUTED: scatter on CUDA copies the input to a buffer the kernel never reads and hands it an output that is not initialised (be_cuda/storage/ops_indexing.rs:390-397, ops_indexing.cu:137-182), so every position no source element belongs to is undetermined (C135_scatter_rest_refuted, for all tensors and schedules); of several source elements for one position the schedule decides, also for scatter_add, scatter_max and scatter_min, which run the same kernel (C135_scatter_race_refuted); the output is written at the offset of the input, outside it for slices (C135_scatter_offset_refuted). index_select does not check indices that are out of range and reads other elements or outside the input (C135_select_range_refuted). index_put reads its metadata in another order than it is written (C64) and is outside the input for every tensor with one axis (C135_put_refuted). The kernels hold 16 coordinates (C135_rank_refuted). Proved under every schedule: index_select with indices in range, gather, and scatter where exactly one source element belongs to the position, or one of several; up to 16 axes and 2^32 - 256 elements."
  },
  {
   "property": "C136",
   "status": "partial",
   "theorems": [
    "C136_topk_partial",
    "C136_first_64_partial",
    "C136_schedule_exists",
    "C136_beyond_64_refuted",
    "C136_more_than_64_refuted",
    "C136_integers_refuted"
   ],
   "note": "REFUTED: C136_beyond_64_refuted: the kernel loads only the first 64 elements of a row into its local arrays (ops_sort.cu:34-44), so the largest of 0..64 is said to be 63; C136_more_than_64_refuted: for k > 64 the cells from the 65th on are never written; C136_integers_refuted: values go through float (L37, L68), so the largest of the single i32 element 16777217 is said to be 16777216 (the CPU kernel copies the element). Proved under every schedule (C136_topk_partial): contiguous tensors along the last axis, at most 64 elements per fibre, types whose values survive the way through float, comparison a strict weak order (no NaN): as C33, and always in order; C136_first_64_partial says what comes out otherwise for k <= 64."
  },
  {
   "property": "C137",
   "status": "partial",
   "theorems": [
    "C137_concat_partial",
    "C137_split_partial",
    "C137_chunk_partial",
    "C137_pad_partial",
    "C137_flip_partial",
    "C137_types_refuted",
    "C137_empty_piece_refuted"
   ],
   "note": "REFUTED: on CUDA concat and split give no result for nine of the fifteen element types, and split gives an empty piece at the end which the CPU refuses. Proved for every schedule that ends: concat, split and chunk (six element types), pad and flip give on CUDA what they give on the CPU, up to the 32-bit limits of the launch."
  },
  {
   "property": "C138",
   "status": "partial",
   "theorems": [
    "C138_prefix_partial",
    "C138_same_partial",
    "C138_turns_exist",
    "C138_scalar_refuted",
    "C138_scalar",
    "C138_bad_axis_refuted"
   ],
   "note": "REFUTED: on CUDA a scalar with an axis other than 0 panics (the CPU gives it back), and an axis out of range panics. Proved for every interleaving of the iterations of the threads: for rank 1 to 16, an axis in range and fewer than 2^32 fibres, cumsum is the prefix sum and what the CPU gives."
  },
  {
   "property": "C139",
   "status": "partial",
   "theorems": [
    "C139_rows_partial",
    "C139_ascending_partial",
    "C139_order_refuted",
    "C139_rank_refuted"
   ],
   "note": "REFUTED: on CUDA the order of the rows of nonzero is the order in which threads reach an atomic counter, so that the same call may give different tensors, and rank above 16 overruns an array of the kernel (the CPU goes to 32). Proved for every schedule: for rank up to 16 the rows are those of the CPU in some order, each once, and in the same order when the threads come in ascending order."
  },
  {
   "property": "C140",
   "status": "partial",
   "theorems": [
    "C140_same_partial",
    "C140_fibre_partial",
    "C140_int_sum_partial",
    "C140_int_max_partial",
    "C140_int_sum_refuted",
    "C140_int_max_refuted",
    "C140_f64_refuted",
    "C140_types_refuted",
    "C140_argmax_f16_refuted",
    "C140_argmax_f32_refuted",
    "C140_argmax_i32",
    "C140_any_f32_refuted"
   ],
   "note": "REFUTED: every accumulator on CUDA is a float (ops_reduce.cu:28, 70, 73), so the sum of the i32 values 16777216 and 1 is 16777216 and the maximum of 5 and 16777217 is 16777216, in every schedule (C140_int_sum_refuted, C140_int_max_refuted), and f64 is cut to f32 (C140_f64_refuted). Nine of fifteen element types have kernels but no case in be_cuda/storage/ops_reduce.rs:80-116 and give an error (C140_types_refuted). The output buffer has the operand's type while argmax stores int32 and any stores bool: for f16 that writes outside the buffer, for f32 the result is a bit pattern, any packs four answers into one element (C140_argmax_f16_refuted, C140_argmax_f32_refuted, C140_any_f32_refuted). PROVED for every schedule that ends and results of at most 2^32-256 elements: with the same accumulator, step and final conversion the device gives exactly what the CPU kernel gives (C140_same_partial), each element accumulates its fibre (C140_fibre_partial), integer sums are exact when the magnitudes in each fibre add up to less than 2^24 (C140_int_sum_partial), integer maxima when each magnitude is below 2^24 (C140_int_max_partial). be_cuda/storage/ops_reduce.rs uses Arc without importing it, which as written does not compile; that is read as std::sync::Arc."
  },
  {
   "property": "C141",
   "status": "partial",
   "theorems": [
    "C141_sort",
    "C141_unique_partial",
    "C141_large_refuted",
    "C141_max_refuted",
    "C141_view_refuted"
   ],
   "note": "REFUTED: unique on CUDA pads the elements to a power of two with the largest integer of the type (3.4e38 in f32, 65504 in f16, 1.7e308 in f64) and takes the first num_els after sorting. An element above the padding (infinity) is pushed out by it for every size that is not a power of two, and the kernel then writes the inverse of a padding cell outside its buffer (C141_large_refuted); an element equal to it can be, as in [1, 2, 255] of u8 (C141_max_refuted). The strides are not read, so views are taken in the order of the buffer (C141_view_refuted). Proved: the bitonic network sorts for every power of two and every schedule of every step (C141_sort, by the 0-1 argument over thresholds), and unique is right for contiguous tensors whose elements are below the padding or whose size is a power of two (C141_unique_partial)."
  },
  {
   "property": "C142",
   "status": "partial",
   "theorems": [
    "C142_flat_partial",
    "C142_axis_partial",
    "C142_none",
    "C142_view_refuted",
    "C142_expanded_refuted"
   ],
   "note": "REFUTED: compress on CUDA keeps the right elements, in order, for every view of the tensor, every rank and every schedule, as long as the condition is a tensor with its own storage (C142_flat_partial, C142_axis_partial, C142_none). The layout of the condition is not read: a view of part of a longer storage panics when it is copied to the host (C142_view_refuted), and an expanded condition is read outside its buffer (C142_expanded_refuted). Also, CudaStorageData::from_slice_u8, which the empty results of unique and compress use (be_cuda/storage/ops_indexing.rs L716, L792, L1013), is defined nowhere in the source, so that the CUDA back end does not compile as it stands; the model takes it to give an empty buffer."
  },
  {
   "property": "C143",
   "status": "partial",
   "theorems": [
    "C143_cpu_partial",
    "C143_scalar_refuted",
    "C143_cuda_partial",
    "C143_far_refuted",
    "C143_dtype",
    "C143_full",
    "C143_zeros"
   ],
   "note": "REFUTED: filling writes exactly the cells of the view on the CPU (any platform and interleaving, C143_cpu_partial) and on CUDA (any schedule, C143_cuda_partial), a scalar of another type is an error (C143_dtype), and zeros, ones and full give the value everywhere (C143_full, C143_zeros). But the CPU kernel takes 0 for the offset of a scalar (storage.c L44), so a scalar view at an offset is not set and the first cell of the storage is (C143_scalar_refuted; CUDA is right), and the CUDA kernel cuts the address of a view that is not contiguous to 32 bits (storage.cu L23), so a view beyond 2^32 cells writes to others (C143_far_refuted). Tensor code only fills fresh contiguous storages, which are right."
  },
  {
   "property": "C144",
   "status": "partial",
   "theorems": [
    "C144_same_partial",
    "C144_window_partial",
    "C144_f64_refuted",
    "C144_types_refuted",
    "C144_rank_refuted"
   ],
   "note": "REFUTED: be_cuda/storage/ops_windowing.rs:107-128 passes only f32, f64 and f16 to the kernels and answers the other twelve element types with an error, though ops_windowing.cu instantiates max, min and sum for all of them but bool (C144_types_refuted); the f64 kernels accumulate in float, so the window of the one element 2^24 + 1 sums to 2^24 (C144_f64_refuted, ops_windowing.cu:181); the local coordinate arrays hold 16 entries, so more than 16 axes have no defined result (C144_rank_refuted). Proved for the three types up to 2^32 - 256 outputs: under every schedule that ends the result is the one of the CPU on the elements converted to the accumulator's type (C144_same_partial), and so the accumulation of exactly the covered elements in row-major order (C144_window_partial). The accumulator is generic; sum is instantiated for f32 and f64 with IEEE arithmetic."
  },
  {
   "property": "C145",
   "status": "partial",
   "theorems": [
    "C145_kernel_partial",
    "C145_same_partial",
    "C145_errors",
    "C145_matmul_refuted",
    "C145_empty_refuted"
   ],
   "note": "REFUTED: as on the CPU (C35) tensor/ops/einsum.rs:104 passes the layouts of the operands after the first as those of all, so the matrix product of [[1,2],[3,4]] and [[5,6],[7,8]] is [[3,3],[7,7]] under every schedule (C145_matmul_refuted); a result without elements is written by thread 0 all the same (C145_empty_refuted, metadata[0] is at least 1). Proved for results of 1 to 2^32 - 1 elements: the kernel, given the layouts of all operands, stores the contraction under every schedule that ends (C145_kernel_partial); the call gives what it gives on the CPU for the same arithmetic (C145_same_partial); it fails with an error exactly where the CPU does (C145_errors). Not modelled: the f8 instances (ops_einsum.cu:184-187) pass __half2float(__nv_cvt_fp8_to_halfraw) as TO_FLOAT, which expands to the call of a float and cannot compile, so build.rs would stop with \"nvcc compilation failed for ops_einsum.cu\" (read off the text, not compiled)."
  },
  {
   "property": "C146",
   "status": "partial",
   "theorems": [
    "C146_det_partial",
    "C146_inv_partial",
    "C146_exact_partial",
    "C146_trace_refuted",
    "C146_f64_refuted",
    "C146_types_refuted",
    "C146_size_refuted",
    "C146_zero_refuted"
   ],
   "note": "REFUTED: the trace kernel has a fourth parameter batch_size (ops_linalg.cu:354-355) but src/kernels/ops_linalg.rs:187 passes three arguments, so the launch reads outside the argument list and the trace has no defined result (C146_trace_refuted; of all kernels this is the only one whose argument count differs, found by reading); matrices larger than 16 x 16 overflow the local arrays of det and inv (C146_size_refuted); f64 is computed in float, so det [[2^24 + 1]] is 2^24 (C146_f64_refuted); the element types other than f32, f64, f16 and bf16 are refused (C146_types_refuted); a singular matrix from 4 x 4 on gives -0 after an odd number of row exchanges where the CPU gives 0 (C146_zero_refuted, ops_linalg.cu:117-138). Proved for 1 to 2^32 - 1 matrices of at most 16 x 16 of the four types: det and inv give under every schedule what the CPU's algorithm gives on the elements converted to float (C146_det_partial, which from 4 x 4 on needs -0 = 0, C146_inv_partial); over exact numbers det is the determinant up to 3 x 3 and for diagonally dominant matrices (C146_exact_partial)."
  },
  {
   "property": "C147",
   "status": "partial",
   "theorems": [
    "C147_same_partial",
    "C147_errors",
    "C147_conv_partial",
    "C147_f64_refuted",
    "C147_transpose_partial",
    "C147_square_partial",
    "C147_transpose_refuted",
    "C147_gradw_partial",
    "C147_gradw_refuted",
    "C147_gradw_transpose_partial",
    "C147_interleaved_partial",
    "C147_gradw_transpose_refuted",
    "C147_contracted_partial",
    "C147_apart",
    "C147_contracted_transpose_partial",
    "C147_contracted_square_partial",
    "C147_contracted_refuted",
    "C147_rounded_once"
   ],
   "note": "REFUTED: call_ops_conv (be_cuda/storage/ops_conv.rs:37-44) allocates the storage of a transposed convolution with the size of a convolution and passes that size to the kernel, while tensor/ops/conv.rs:446-447 gives the result the larger shape; every transposed convolution longer than the convolution is a tensor that reaches beyond its storage (C147_transpose_refuted; two elements by a kernel of two give shape [1,1,3] over one element, C147_transpose_witness). The gradient of the weight is accumulated by atomic additions into a buffer from new_buffer, which is not initialised (be_cuda/storage/ops_conv.rs:185, be_cuda/device.rs:91-101): no gradient of a weight with elements has a determined value (C147_gradw_refuted). f64 is computed in float: 2^24 + 1 convolved by 1 is 2^24 (C147_f64_refuted). As on the CPU, strides of the operands are ignored. Proved for results of at most 2^32 - 256 elements, under every schedule that ends: convolutions give what the loops of the CPU give on the elements converted to float, errors included (C147_same_partial, C147_errors), which for row-major operands is the sum of the products that meet (C147_conv_partial); transposed convolutions of the size of the convolution are right with one input or one output channel (C147_transpose_partial), and with as many input as output channels read the weight with the two exchanged (C147_square_partial); on a buffer of zeros the gradient of the weight is the CPU's for every order of the indices, if the order of additions does not matter (C147_gradw_partial). The gradient of the weight of a transposed convolution likewise (C147_gradw_transpose_partial, C147_gradw_transpose_refuted), and the additions of a launch may be interleaved in any way (C147_interleaved_partial). Compiled with --fmad=true (build.rs:50 of hodu_cuda_kernels), sum += x * w may be rounded once: whatever the compiler makes of it, a convolution takes that step once for each pair of elements that meet, in order (C147_contracted_partial; transposed: C147_contracted_transpose_partial, C147_contracted_square_partial; C147_apart for two operations), and with a fused multiply-add the convolution of [a, a] by [a, -a], a = 1 + 2^-12, is -2^-24 where the CPU gives 0 (C147_contracted_refuted; that step is the exact sum rounded once, C147_rounded_once). Missing: results of more than 2^32 - 256 elements, contraction in the gradients of the weight, where the addition is atomic."
  },
  {
   "property": "C148",
   "status": "partial",
   "theorems": [
    "C148_in_bounds_partial",
    "C148_errors",
    "C148_same_partial",
    "C148_nearest_same_partial",
    "C148_nearest_partial",
    "C148_linear_partial",
    "C148_cubic_partial",
    "C148_contracted_refuted",
    "C148_f32_refuted",
    "C148_empty_refuted",
    "C148_rounded_once"
   ],
   "note": "REFUTED: the CUDA kernels are compiled with --fmad=true (hodu_cuda_kernels/build.rs:50), so the half-pixel coordinate (o + 0.5) * scale - 0.5 may be rounded once where the CPU rounds twice: resizing three elements to nineteen with the nearest element, half-pixel coordinates and floor then gives element 0 at position 9, under every schedule, where the CPU and the exact coordinate give element 1 (C148_contracted_refuted); f32 coordinates are off as on the CPU (C148_f32_refuted), and an empty spatial axis is read from instead of rejected, in every mode and under every contraction (C148_empty_refuted). Proved: with non-empty spatial axes nothing is read or written out of bounds and every element is determined, in any arithmetic, under any contraction and schedule; errors are those of the CPU; the result is that of the CPU bit for bit if nothing is contracted, and for the nearest element with asymmetric or aligned-corner coordinates whatever is contracted; with exact arithmetic it is the nearest element, the linear or the cubic interpolation. The fused operation of the witness is the exact x * y - z rounded once (C148_rounded_once). Missing: more than 2^32 - 256 output elements; bounds on the rounding error of interpolated values; sizes beyond the range of int."
  }
 ]
}