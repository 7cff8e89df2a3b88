{
 "claims": [
  {
   "property": "C01",
   "status": "proved",
   "theorems": [
    "C01_dense_refines_map",
    "C01_dense_resize_throws_iff_empty",
    "C01_dense_large_window_refuted"
   ],
   "note": "Holds for windows with fewer than 2^31 voxels; the refuted theorem shows the int overflow above that."
  },
  {
   "property": "C02",
   "status": "proved",
   "theorems": [
    "C02_iterate_subset",
    "C02_iterate_field",
    "C02_iterate_thin_empty_window_refuted",
    "C02_advance"
   ],
   "note": "Whole-field iteration is correct for non-empty windows and for the default window; refuted for a window empty on one axis only."
  },
  {
   "property": "C03",
   "status": "proved",
   "theorems": [
    "C03_dense_iterator",
    "C03_dense_iterator_whole"
   ],
   "note": ""
  },
  {
   "property": "C04",
   "status": "proved",
   "theorems": [
    "C04_sparse_refines_map"
   ],
   "note": "For windows of at most 2^24 voxels per axis and fewer than 2^31 blocks, block orders 0 to 10."
  },
  {
   "property": "C05",
   "status": "proved",
   "theorems": [
    "C05_release_all_equal_keeps_values",
    "C05_release_all_equal_exact",
    "C05_release_count",
    "C05_release_max_abs",
    "C05_max_abs_small_change_refuted"
   ],
   "note": "CheckMaxAbs can change values arbitrarily (refuted theorem)."
  },
  {
   "property": "C06",
   "status": "proved",
   "theorems": [
    "C06_block_grid_covers_window",
    "C06_long_axis_refuted"
   ],
   "note": "True up to 2^24 voxels per axis; refuted beyond."
  },
  {
   "property": "C07",
   "status": "proved",
   "theorems": [
    "C07_write_is_local",
    "C07_unallocated_reads_empty_value",
    "C07_voxel_count_and_memory"
   ],
   "note": "Reading has no effect on the state by construction of the model for in-memory fields."
  },
  {
   "property": "C08",
   "status": "proved",
   "theorems": [
    "C08_const_iterator",
    "C08_mutable_iterator_fill",
    "C08_dynamic_iterator_aligned",
    "C08_dynamic_iterator_offset_refuted",
    "C08_dynamic_iterator_overread_refuted"
   ],
   "note": "In-memory const and mutable iterators proved; the const iterator of a dynamically loaded field is proved for windows aligned to the block size and refuted otherwise."
  },
  {
   "property": "C09",
   "status": "proved",
   "theorems": [
    "C09_dense_grains_partition",
    "C09_dense_grains_inside",
    "C09_sparse_grains_partition",
    "C09_sparse_grain_is_block",
    "C09_block_iterator_visits",
    "C09_block_iterator_bounds_at_origin",
    "C09_block_iterator_bounds_refuted"
   ],
   "note": "Block iterator bounds refuted when the window does not start at the origin."
  },
  {
   "property": "C10",
   "status": "proved",
   "theorems": [
    "C10_index_to_coord_inverse",
    "C10_index_to_coord_onto",
    "C10_clip_bounds",
    "C10_set_size_padding",
    "C10_is_in_bounds",
    "C10_voxel_count",
    "C10_voxel_count_empty_refuted"
   ],
   "note": "voxelCount is wrong for an empty window (refuted theorem)."
  },
  {
   "property": "C11",
   "status": "proved",
   "theorems": [
    "C11_copy",
    "C11_same_mapping",
    "C11_identical_transforms",
    "C11_is_identical",
    "C11_copy_identical",
    "C11_match_definition",
    "C11_mapping_follows",
    "C11_self_copy_refuted",
    "C11_nan_refuted",
    "C11_copy_of_new_refuted",
    "C11_shear_refuted",
    "C11_symmetric_refuted"
   ],
   "note": "Dense and sparse fields, all mapping types. A copy has the source's definition, extents, data window and converted values (C11_copy); isIdentical decides exactly equality of windows, values and mapping samples (C11_is_identical, C11_same_mapping; shear-free matrix mappings found identical have equal transforms, C11_identical_transforms), so a copy is identical to its source when the value comparison is reflexive (C11_copy_identical). matchDefinition and the mapping extents are in C11_match_definition and C11_mapping_follows. Findings: copying a field onto itself erases it (C11_self_copy_refuted), NaN makes a field differ from itself (C11_nan_refuted), a dense copy of a new field throws (C11_copy_of_new_refuted), isIdentical ignores shear (C11_shear_refuted) and is not symmetric under a tolerance (C11_symmetric_refuted). The angles of extractSHRT are a parameter."
  },
  {
   "property": "C12",
   "status": "proved",
   "theorems": [
    "C12_histories_never_fail",
    "C12_lazy_read_returns_file_value",
    "C12_lazy_read_terminates"
   ],
   "note": "Every history of opening, reading, flushing and destroying succeeds and reads return the stored voxel; a read can hang only when pinned blocks alone fill the limit (see C14)."
  },
  {
   "property": "C13",
   "status": "proved",
   "theorems": [
    "C13_concurrent_accounting",
    "C13_concurrent_overshoot_bounded",
    "C13_concurrent_limit_refuted",
    "C13_accounting_exact",
    "C13_limit_respected",
    "C13_activate_loaded",
    "C13_flush_empties",
    "C13_destroy_forgets"
   ],
   "note": "Exact for one thread at a time; the concurrent overshoot is refuted separately."
  },
  {
   "property": "C14",
   "status": "proved",
   "theorems": [
    "C14_terminates_iff",
    "C14_step_bound",
    "C14_two_passes",
    "C14_all_pinned_livelock_refuted"
   ],
   "note": "Terminates exactly when enough unpinned memory exists; the unconditional claim is refuted by a livelock witness."
  },
  {
   "property": "C15",
   "status": "proved",
   "theorems": [
    "C15_reader_sees_file_data",
    "C15_pinned_block_stays_loaded",
    "C15_counts_return_to_zero",
    "C15_no_deadlock",
    "C15_flush_breaks_readers_refuted"
   ],
   "note": "Proved for any number of readers under every interleaving; refuted as soon as a flush may run concurrently."
  },
  {
   "property": "C16",
   "status": "proved",
   "theorems": [
    "C16_round_trip",
    "C16_empty_data_refuted",
    "C16_any_calls",
    "C16_reader_interface"
   ],
   "note": "Every sequence of calls on any set of open groups, groups closed in any order, eager or lazy reader; files below 2^63 bytes. Empty data elements are refuted."
  },
  {
   "property": "C17",
   "status": "proved",
   "theorems": [
    "C17_crash_between_writes",
    "C17_log_is_file",
    "C17_nothing_visible_before_close",
    "C17_torn_write",
    "C17_early_close_refuted",
    "C17_torn_root_refuted",
    "C17_torn_header_refuted",
    "C17_other_version_undefined",
    "C17_bad_magic_rejected"
   ],
   "note": "Every crash point between two writes and every torn write except the header and the root offset, with handles closed children first (what destructors do). Torn root offset, torn header and explicit early freeze are refuted."
  },
  {
   "property": "C18",
   "status": "proved",
   "theorems": [
    "C18_find_attribute",
    "C18_string_exact",
    "C18_attribute_type",
    "C18_find_dataset",
    "C18_names",
    "C18_find_by_path",
    "C18_slash_in_name_refuted",
    "C18_empty_name_refuted"
   ],
   "note": "Any set of siblings with non-empty, NUL-free names. Attribute names with '/' and empty names are refuted."
  },
  {
   "property": "C19",
   "status": "proved",
   "theorems": [
    "C19_one_thread",
    "C19_no_gap_order",
    "C19_no_gap_terminates",
    "C19_order_refuted",
    "C19_hang_refuted",
    "C19_overread_refuted",
    "C19_zero_threads_refuted"
   ],
   "note": "Proved for one thread with any allocation, and for any number of threads when the allocated blocks are contiguous; the general claim is refuted (swapped blocks, endless wait, read past the block array, zero threads). Sequentially consistent memory."
  },
  {
   "property": "C20",
   "status": "proved",
   "theorems": [
    "C20_read_blocks",
    "C20_write_then_read"
   ],
   "note": "Every schedule, any number of threads; joined to C19 by C20_write_then_read."
  },
  {
   "property": "C21",
   "status": "proved",
   "theorems": [
    "C21_round_trip",
    "C21_gap_refuted",
    "C21_order_4_refuted",
    "C21_write_lazy_refuted",
    "C21_block_count_refuted"
   ],
   "note": "Any reachable field, any threads' schedules (writer: one thread or contiguous allocated blocks), eager and dynamic loading; zlib is a parameter assumed lossless. Refuted: gaps with several writer threads, windows too large for block order 4, rewriting a dynamically loaded field, inconsistent block count in the file."
  },
  {
   "property": "C22",
   "status": "proved",
   "theorems": [
    "C22_round_trip",
    "C22_wrong_type",
    "C22_unsized_refuted",
    "C22_oversize_refuted"
   ],
   "note": "Any reachable field with a non-empty window, among any other entries of the group. Refuted: unsized field, oversize data element."
  },
  {
   "property": "C23",
   "status": "proved",
   "theorems": [
    "C23_write_outcomes",
    "C23_layers_read",
    "C23_all_layers_read",
    "C23_listing",
    "C23_dense_layer",
    "C23_layer_called_mapping_refuted",
    "C23_empty_layer_name_refuted",
    "C23_empty_partition_name_refuted",
    "C23_second_file_listing_refuted",
    "C23_failed_mapping_refuted",
    "C23_mapping_changed_refuted"
   ],
   "note": "All histories of layer writes, over any mapping comparison; names must be non-empty, NUL-free and not \"mapping\", and the refuted theorems show each restriction is needed. Also refuted: partition listing on a reused output object, and mappings changed after the write."
  },
  {
   "property": "C24",
   "status": "proved",
   "theorems": [
    "C24_last_write_wins",
    "C24_assign",
    "C24_file",
    "C24_round_trip",
    "C24_two_types_refuted",
    "C24_slash_refuted",
    "C24_empty_name_refuted"
   ],
   "note": "All histories of metadata writes and any storable encoding; refuted for a name used at two types, names with '/' and empty names."
  },
  {
   "property": "C25",
   "status": "proved",
   "theorems": [
    "C25_matrix_samples",
    "C25_matrix_round_trip",
    "C25_null_round_trip",
    "C25_layer_mapping",
    "C25_frustum_reads_default",
    "C25_frustum_write_partial",
    "C25_frustum_write_refuted",
    "C25_frustum_round_trip_refuted"
   ],
   "note": "Matrix and null mappings: proved for all histories and composed with C23. Frustum mappings: every one reads back as the default frustum with its slice distribution (proved), so the round trip is refuted; writing one reads out of bounds when its first transform is not at time 0 (refuted), and is defined when all are (C25_frustum_write_partial)."
  },
  {
   "property": "C26",
   "status": "proved",
   "theorems": [
    "C26_lookup",
    "C26_read_twice",
    "C26_keys_refuted",
    "C26_stale_refuted",
    "C26_lookup_race_refuted"
   ],
   "note": "Sequential histories with the paths readLayer forms. Refuted: keys of other paths, files rewritten while a field is in use, and a lookup racing with the last release."
  },
  {
   "property": "C27",
   "status": "proved",
   "theorems": [
    "C27_fields_read_maps",
    "C27_at_voxel_centres",
    "C27_bounded",
    "C27_affine",
    "C27_constant",
    "C27_lipschitz"
   ],
   "note": "Exact arithmetic over the reals, for dense, generic and sparse interpolators on any window (including negative coordinates)."
  },
  {
   "property": "C28",
   "status": "proved",
   "theorems": [
    "C28_sparse_fast_path",
    "C28_sparse_interpolates"
   ],
   "note": "Any reachable sparse field; fast path and generic path agree at every position."
  },
  {
   "property": "C29",
   "status": "partial",
   "theorems": [
    "C29_at_voxel_centres",
    "C29_constant",
    "C29_affine",
    "C29_overshoot_bounded",
    "C29_interpolant_overshoot",
    "C29_monotone_partial",
    "C29_monotone_refuted",
    "C29_negative_window_refuted",
    "C29_below_window_refuted"
   ],
   "note": "Values at centres, constants, affine data and overshoot bounds proved (1/8 of the local variation per axis, 61/128 for three axes); monotonicity proved per line segment where the data is monotone with the stated slopes, and refuted in general; refuted for windows with negative coordinates (the position is clamped at 0.5, not at the window) and below windows that start above the origin (the index is clamped, the fraction is not)."
  },
  {
   "property": "C30",
   "status": "proved",
   "theorems": [
    "C30_local_voxel",
    "C30_matrix_in_force",
    "C30_matrix_exists",
    "C30_world_local",
    "C30_world_voxel",
    "C30_defined",
    "C30_time_zero",
    "C30_voxel_size",
    "C30_voxel_size_perspective_refuted",
    "C30_point_in_field",
    "C30_null",
    "C30_procedural_partial",
    "C30_procedural_refuted",
    "C30_frustum_perspective",
    "C30_frustum_uniform",
    "C30_depth_in_step",
    "C30_frustum_default",
    "C30_frustum_voxel_size",
    "C30_frustum_single_slice_refuted"
   ],
   "note": "Matrix mappings: all histories of setLocalToWorld/makeIdentity/setExtents, every time, including perspective matrices where the result is finite. Null and frustum mappings too; uniform frustum slices need the depth condition proved for every projection-type camera. Refuted: voxel size of a perspective matrix mapping and of a single-slice frustum, procedural lookup position for windows not at the origin."
  },
  {
   "property": "C31",
   "status": "proved",
   "theorems": [
    "C31_contains",
    "C31_affine",
    "C31_world_to_voxel",
    "C31_projective_refuted"
   ],
   "note": "Any matrix with positive weight at the corners, all affine mappings; smallest box too. Refuted for a box reaching behind a camera."
  },
  {
   "property": "C32",
   "status": "proved",
   "theorems": [
    "C32_samples",
    "C32_linear",
    "C32_bounded"
   ],
   "note": "Exact arithmetic over the reals; samples for any totally ordered time type."
  },
  {
   "property": "C33",
   "status": "proved",
   "theorems": [
    "C33_formula",
    "C33_bounds",
    "C33_constant",
    "C33_min",
    "C33_max",
    "C33_refused",
    "C33_narrow_box_refuted"
   ],
   "note": "Dense and sparse scalar fields, exact arithmetic, resolutions up to 2^24 per axis: the exact formula for box, triangle, Gaussian (width up to 2) and Mitchell filters; range and constants preserved for the non-negative ones wide enough to meet a voxel; minimum and maximum filters; the refused calls. Refuted: a box narrower than a voxel leaves zeros in a constant field."
  },
  {
   "property": "C34",
   "status": "proved",
   "theorems": [
    "C34_levels",
    "C34_zero_offset",
    "C34_mean_of_eight",
    "C34_bounds",
    "C34_min",
    "C34_max",
    "C34_covered",
    "C34_cropped",
    "C34_odd_offset_refuted",
    "C34_dropped_data_refuted"
   ],
   "note": "Dense and sparse scalar bases at the origin, exact arithmetic, every filter (for sparse fields: support below 1.25, see C36), offset, minimum size, thread count and schedule: number, sizes and exact values of all levels, and exactly when the call throws. Without offset it never throws. Box filter: mean of eight. Means stay in range. Minimum and maximum filters without offset: C34_min, C34_max, C34_covered. Refuted: odd offsets can make the call throw, and can drop data."
  },
  {
   "property": "C35",
   "status": "proved",
   "theorems": [
    "C35_schedule_independent",
    "C35_items_partition",
    "C35_each_item_once",
    "C35_separate_blocks",
    "C35_one_writer",
    "C35_allocated_block",
    "C35_shared_block_refuted",
    "C35_lost_write_refuted",
    "C35_use_after_free_refuted",
    "C35_fill_race_refuted",
    "C35_no_threads_refuted"
   ],
   "note": "Any number of threads and any interleaving of the items (the items partition the target, each is taken once, results are schedule-independent). Interleaving of single memory accesses inside one target block, sequentially consistent memory: proved for one writing thread and for allocated blocks; with source blocks smaller than the target's, items share an unallocated block, and lost stores, overwritten stores and use after free are exhibited. No threads: nothing is filtered."
  },
  {
   "property": "C36",
   "status": "proved",
   "theorems": [
    "C36_skip_sound",
    "C36_mitchell_refuted",
    "C36_gaussian_refuted"
   ],
   "note": "Summing filters with support below 1.25 (default box and triangle); refuted for the default Mitchell and Gaussian filters."
  },
  {
   "property": "C37",
   "status": "proved",
   "theorems": [
    "C37_no_ub",
    "C37_loaded_once",
    "C37_only_requested",
    "C37_same_for_all",
    "C37_one_reader",
    "C37_usable_at_rest",
    "C37_no_deadlock",
    "C37_throws_only_on_failure",
    "C37_retry",
    "C37_clone",
    "C37_ready_when_returned_refuted",
    "C37_clone_shares_mutex_refuted"
   ],
   "note": "Every access to a member is one step of an interleaving semantics with any number of threads, each with any list of requests, and with loads that may fail. Proved: no undefined behaviour, each level read at most once and only if requested, all callers given the same object of the right level, one reader at a time, complete once at rest, no deadlock from any reachable state, exceptions only after a failed load, retry after failure, copies made at rest keep what was loaded. Refuted: that a returned level already has its metadata and mapping (it is published by updateAuxMembers before syncLevelInfo and setMapping), and that a field and its clone share the mutex as the comment on it says (init makes a new one). Memory is sequentially consistent in the model; the code's unsynchronised reads are data races under C++11."
  },
  {
   "property": "C38",
   "status": "proved",
   "theorems": [
    "C38_sequential",
    "C38_concurrent",
    "C38_concurrent_serial",
    "C38_double_delete_refuted",
    "C38_late_read_refuted"
   ],
   "note": "Sequential: all histories. Concurrent: never deleted while referenced, no leak, for all interleavings; double deletion and use after deletion refuted with witnesses; non-overlapping releases proved safe."
  },
  {
   "property": "C39",
   "status": "proved",
   "theorems": [
    "C39_faces",
    "C39_lvalue_assignment_refuted",
    "C39_resize_clears_refuted",
    "C39_component_iterator",
    "C39_component_iterator_whole",
    "C39_copy",
    "C39_to_mac",
    "C39_to_cells",
    "C39_constant_round_trip",
    "C39_rotation_refuted",
    "C39_tiny_rotation_refuted"
   ],
   "note": "All histories of resizes, clears and assignments; conversions for any window, with the rotation found in the mapping as a parameter. Refuted: assignment through lvalue is lost, a resize keeps old values, and constants do not survive the round trip for rotations about several axes or for tiny rotations (proved for no rotation or one axis)."
  },
  {
   "property": "C40",
   "status": "proved",
   "theorems": [
    "C40_box",
    "C40_tiny_direction_refuted",
    "C40_negative_zero_refuted",
    "C40_matrix",
    "C40_group",
    "C40_frustum",
    "C40_frustum_field",
    "C40_depth_planes",
    "C40_default_camera",
    "C40_parallel_refuted",
    "C40_behind_refuted",
    "C40_mirrored_refuted"
   ],
   "note": "Box, matrix mappings, whole groups, and frustum mappings with perspective or uniform slices, with and without object transforms. Frustums: cameras that see the frustum in front of them and whose local axes are mirrored, rays not parallel to a face unless on its inner side; with these conditions the interval reported is exactly the part of the ray from its start on in the frustum (an empty interval if that is empty), and nothing is reported only if the frustum is met in at most one point. Each condition is needed, refuted: direction components below the cut-off, negative zero, parallel faces, frustums behind the start, cameras that are not mirrored."
  },
  {
   "property": "C41",
   "status": "partial",
   "theorems": [
    "C41_min_max_partial",
    "C41_early_return_refuted",
    "C41_negative_refuted",
    "C41_sampled_refuted",
    "C41_remapped_refuted"
   ],
   "note": "Proved for affine mappings when every field has a voxel in the query, for voxels at non-negative indices. Refuted otherwise: early return at the first field that misses; negative coordinates. Also refuted for interpolated samples near voxel borders (C41_sampled_refuted) and for fields with a value remap operator (C41_remapped_refuted). Pre-filtered fields are C53."
  },
  {
   "property": "C42",
   "status": "proved",
   "theorems": [
    "C42_match",
    "C42_match_attribute",
    "C42_order",
    "C42_no_patterns",
    "C42_exclusions_only",
    "C42_split",
    "C42_string",
    "C42_comma_refuted"
   ],
   "note": "For every wildcard matcher (fnmatch is a parameter) and NUL-free strings. Refuted: the documented ',' separator (the code splits at spaces)."
  },
  {
   "property": "C43",
   "status": "proved",
   "theorems": [
    "C43_expansion",
    "C43_existing",
    "C43_unresolved",
    "C43_no_prefix_refuted",
    "C43_no_start_refuted",
    "C43_leading_mark_refuted",
    "C43_largest_end_refuted"
   ],
   "note": "For a non-empty prefix not ending in a digit and an end below the largest int; zero padding is dropped. Refuted outside: no prefix, missing start, leading mark, end = INT_MAX."
  },
  {
   "property": "C44",
   "status": "partial",
   "theorems": [
    "C44_rounding_voxel",
    "C44_rounding_round_trip",
    "C44_round_trip",
    "C44_voxel_of_position",
    "C44_continuous_bounds",
    "C44_large_bounds_refuted",
    "C44_discrete_bounds_partial",
    "C44_discrete_bounds_refuted",
    "C44_there_and_back"
   ],
   "note": "Round trip, containing voxel and continuousBounds proved; discreteBounds proved for non-negative or integral corners and refuted otherwise (the conversion to int truncates toward zero before floor and ceil); continuousBounds refuted for coordinates of 2^24 and more (float rounding). Round trip and containing voxel are also proved in IEEE double arithmetic (C44_rounding_round_trip, C44_rounding_voxel)."
  },
  {
   "property": "C45",
   "status": "proved",
   "theorems": [
    "C45_first_wins",
    "C45_unregistered",
    "C45_stable",
    "C45_field_names"
   ],
   "note": "All histories of the four kinds of registration; sequential."
  },
  {
   "property": "C47",
   "status": "proved",
   "theorems": [
    "C47_sample",
    "C47_contributions",
    "C47_inside",
    "C47_bounds_optimization"
   ],
   "note": "Values within 2^24 voxels (the bounds go through float). The point test of MIP fields is the same; the flag that selects the shortcut is never initialised in the MIP wrapper, so both settings are proved to agree."
  },
  {
   "property": "C48",
   "status": "proved",
   "theorems": [
    "C48_bounds",
    "C48_window_refuted"
   ],
   "note": "Affine mappings; refuted when the data window exceeds the extents."
  },
  {
   "property": "C49",
   "status": "proved",
   "theorems": [
    "C49_linear",
    "C49_cubic",
    "C49_cubic_below_window_refuted"
   ],
   "note": "Exact arithmetic, any reachable field. Cubic: at faces whose other coordinates are non-negative; refuted below the window along the component's axis."
  },
  {
   "property": "C50",
   "status": "proved",
   "theorems": [
    "C50_values",
    "C50_untouched",
    "C50_clone",
    "C50_assign",
    "C50_assigned_data",
    "C50_assign_refuted",
    "C50_assign_extents_refuted"
   ],
   "note": "Dense and sparse fields that are not dynamically loaded; mappings are heap objects reached by pointers. Without assignment every legal history is indistinguishable from one in which each field has its own data, mapping, labels and metadata (C50_values, C50_untouched), clones show what their source shows (C50_clone). Assignment shows the same (C50_assign) and keeps everything but the mapping independent (C50_assigned_data). Finding: assignment copies the pointer to the mapping, so resizing or remapping one field changes the mapping of the other and breaks its extents (C50_assign_refuted, C50_assign_extents_refuted)."
  },
  {
   "property": "C46",
   "status": "proved",
   "theorems": [
    "C46_coord",
    "C46_level",
    "C46_world",
    "C46_next",
    "C46_centres",
    "C46_offset",
    "C46_shared_grid",
    "C46_growing_refuted",
    "C46_unadjusted",
    "C46_identity_refuted"
   ],
   "note": "Matrix mappings with at least one time sample, without perspective, whose axes keep their lengths over time (rotation and translation may vary): C46_level, C46_world. getVsMIPCoord: C46_coord; agreement with the filters of C34: C46_centres; offsets: C46_offset, C46_shared_grid. Findings: the voxel size is only taken at time 0, so levels of a field that changes size are wrong (C46_growing_refuted); mappings without samples and mappings of other classes are not adjusted, so levels of odd-sized fields are misplaced (C46_unadjusted, C46_identity_refuted). Rounding to float is left out."
  },
  {
   "property": "C51",
   "status": "proved",
   "theorems": [
    "C51_sample",
    "C51_bounds",
    "C51_mip"
   ],
   "note": "Exact arithmetic; levels are dense or sparse fields all of whose voxels can be read. C51_sample gives the value for every spot size on closed intervals, hence also continuity; C51_bounds the range; C51_mip combines it with the levels built by makeMIP (C34) with averaging filters and offset 0."
  },
  {
   "property": "C52",
   "status": "proved",
   "theorems": [
    "C52_box",
    "C52_aligned",
    "C52_one",
    "C52_defined",
    "C52_voxels",
    "C52_stable",
    "C52_extents",
    "C52_extents_count",
    "C52_extents_refuted"
   ],
   "note": "Exact arithmetic. The reported extents are refuted: C52_extents says what they are, C52_extents_count for which bounds they have one voxel per cell, C52_extents_refuted gives a field whose voxels have half the size asked for."
  },
  {
   "property": "C53",
   "status": "proved",
   "theorems": [
    "C53_query",
    "C53_made",
    "C53_cost",
    "C53_unreduced",
    "C53_reduced_refuted",
    "C53_cropped_refuted",
    "C53_empty_refuted",
    "C53_ignored",
    "C53_group",
    "C53_unfiltered",
    "C53_late_refuted"
   ],
   "note": "C53_query: any levels that summarise their bases (prefilters) give conservative answers for every query box; C53_made: the levels that makeMinMax builds do, for dense and sparse bases at the origin with at least two voxels per axis, window = extents and a multiplier with whole cells (C53_unreduced: always for multipliers >= 1); C53_group: groups after any number of set-ups. C53_cost: at most 27 values per field are read when the last level is small, which holds for cubes; C53_made shows that thin fields have one level of full size. Refuted outside: C53_reduced_refuted, C53_cropped_refuted, C53_empty_refuted with C53_ignored, C53_late_refuted."
  },
  {
   "property": "C54",
   "status": "proved",
   "theorems": [
    "C54_setup",
    "C54_dense_round_trip",
    "C54_sparse_round_trip",
    "C54_any_group",
    "C54_load_any",
    "C54_read_sizes",
    "C54_new_refuted",
    "C54_cleared_refuted"
   ],
   "note": "Ogawa files. C54_dense_round_trip, C54_sparse_round_trip: reading gives kind, extents, windows and levels; loading any level through its path gives exactly that level (sparse: for every schedule of writers without the gaps of C21 and of readers). C54_setup, C54_read_sizes: which levels a field can have. C54_any_group: no group with usable names makes the reader crash. Refuted outside: C54_new_refuted (a MIP field that was only constructed: writing is undefined behaviour), C54_cleared_refuted (a cleared field is written but cannot be read)."
  },
  {
   "property": "C55",
   "status": "proved",
   "theorems": [
    "C55_reads",
    "C55_counts",
    "C55_pinned",
    "C55_balanced",
    "C55_traversal",
    "C55_copy_refuted",
    "C55_copy_count_refuted",
    "C55_flush_refuted",
    "C55_end_iterator_livelock_refuted"
   ],
   "note": "C55_reads, C55_counts (with C55_pinned, C55_balanced), C55_traversal: programs over one lazily opened field with other cache operations interleaved at operation level; a run that ends (loading may wait for memory for ever: C14) ends well. Conditions shown necessary: C55_copy_refuted, C55_copy_count_refuted (compiler-made copies), C55_flush_refuted, C08_dynamic_iterator_offset_refuted and C08_dynamic_iterator_overread_refuted (window off the block grid). Finding: C55_end_iterator_livelock_refuted (the loop never ends although each block fits in memory)."
  },
  {
   "property": "C56",
   "status": "proved",
   "theorems": [
    "C56_dense",
    "C56_dense_wrong_type",
    "C56_one_scalar_refuted",
    "C56_scalar_count_refuted",
    "C56_dense_accepted",
    "C56_sparse",
    "C56_sparse_wrong_type",
    "C56_large_block_refuted",
    "C56_write_lazy_refuted",
    "C56_sparse_accepted",
    "C56_block_count_refuted",
    "C56_mac",
    "C56_mac_wrong_type",
    "C56_mac_data_size_refuted",
    "C56_mac_accepted",
    "C56_mac_ogawa_refuted"
   ],
   "note": "HDF5 library behaviour is an assumption of the model: attributes and data sets by name, a name can be used once, chunk sides positive and chunks below 4 GiB, and (hypothesis faithful) reading with the type that was written gives the stored scalars. C56_dense, C56_sparse (all at once in passes of any size, and on demand), C56_mac, *_wrong_type. Conditions shown necessary: C56_one_scalar_refuted, C56_scalar_count_refuted, C56_large_block_refuted, C56_write_lazy_refuted, C56_block_count_refuted, C56_mac_data_size_refuted, C56_mac_ogawa_refuted."
  },
  {
   "property": "C57",
   "status": "proved",
   "theorems": [
    "C57_proxies",
    "C57_all_proxies",
    "C57_proxies_agree",
    "C57_any_file",
    "C57_vector_refuted",
    "C57_empty_field",
    "C57_proxy_value_refuted",
    "C57_unstored_layer_refuted",
    "C57_mip_levels_refuted",
    "C57_empty_partition_refuted"
   ],
   "note": "Ogawa files. C57_proxies, C57_all_proxies: after any history of writes of dense, sparse and MIP fields (corners are ints, metadata storable with one type per name); C57_proxies_agree: any file; C57_any_file: no undefined behaviour in any file with usable names; C57_empty_field: any operations on a field without storage. Findings: C57_vector_refuted, C57_proxy_value_refuted (reading a voxel of a proxy reads uninitialised memory), C57_unstored_layer_refuted, C57_mip_levels_refuted, C57_empty_partition_refuted."
  },
  {
   "property": "C58",
   "status": "proved",
   "theorems": [
    "C58_write_outcomes",
    "C58_layers_read",
    "C58_all_layers_read",
    "C58_listing",
    "C58_layer_group",
    "C58_dense_layer",
    "C58_open_safe",
    "C58_both_kinds_refuted",
    "C58_slash_opens_refuted",
    "C58_slash_read_refuted",
    "C58_second_file_refuted",
    "C58_second_open_refuted",
    "C58_failed_mapping_refuted",
    "C58_failed_layer_refuted",
    "C58_wide_attribute_refuted",
    "C58_dangling_link_refuted",
    "C58_hidden_partition_refuted"
   ],
   "note": "The HDF5 library is an assumption of the model (tree of groups with named attributes and links; any order of listing). C58_write_outcomes, C58_layers_read, C58_all_layers_read, C58_listing, C58_layer_group, C58_dense_layer (with C56), C58_open_safe. Mappings are a parameter: any with storage that can be read back (h_map_ok; C60 gives the real ones). Findings: C58_both_kinds_refuted, C58_slash_opens_refuted, C58_slash_read_refuted, C58_second_file_refuted, C58_second_open_refuted, C58_failed_mapping_refuted (undefined behaviour), C58_failed_layer_refuted, C58_wide_attribute_refuted, C58_dangling_link_refuted, C58_hidden_partition_refuted."
  },
  {
   "property": "C59",
   "status": "proved",
   "theorems": [
    "C59_round_trip",
    "C59_accepted",
    "C59_read_any",
    "C59_two_types_refuted",
    "C59_retry_refuted",
    "C59_nul_refuted",
    "C59_nul_name_refuted",
    "C59_wide_refuted"
   ],
   "note": "C59_round_trip, C59_accepted, C59_read_any. Findings: C59_two_types_refuted, C59_retry_refuted, C59_nul_refuted, C59_nul_name_refuted, C59_wide_refuted. Variable-length strings are not modelled."
  },
  {
   "property": "C60",
   "status": "proved",
   "theorems": [
    "C60_matrix_round_trip",
    "C60_null_round_trip",
    "C60_frustum_samples",
    "C60_frustum_round_trip",
    "C60_frustum_write_ub",
    "C60_frustum_write_refuted",
    "C60_old_matrix",
    "C60_read_safe",
    "C60_open_safe",
    "C60_layer_mapping",
    "C60_wide_refuted",
    "C60_no_count_refuted"
   ],
   "note": "C60_matrix_round_trip, C60_null_round_trip, C60_frustum_samples, C60_frustum_round_trip, C60_frustum_write_ub (exactly when writing is undefined behaviour), C60_old_matrix, C60_read_safe, C60_open_safe, C60_layer_mapping (with C58). Times and matrices are of any types that are stored in 4 and 128 bytes; setTransforms throwing on matrices that are not invertible perspective matrices is not modelled. Findings: C60_frustum_write_refuted, C60_wide_refuted, C60_no_count_refuted."
  },
  {
   "property": "C61",
   "status": "proved",
   "theorems": [
    "C61_same_values",
    "C61_read_terminates",
    "C61_flush_after_overwrite",
    "C61_write_is_lost",
    "C61_overwrite_in_memory_refuted",
    "C61_copy_after_block_empty_refuted",
    "C61_release_refuted"
   ],
   "note": "C61_same_values (all histories without an overwrite of a field in memory), C61_read_terminates, C61_flush_after_overwrite (exactly when the overwrite is harmful), C61_write_is_lost. Findings: C61_overwrite_in_memory_refuted (use after free), C61_copy_after_block_empty_refuted (the copy reads other blocks), C61_release_refuted (null dereference)."
  },
  {
   "property": "C62",
   "status": "proved",
   "theorems": [
    "C62_round_trip",
    "C62_read_any",
    "C62_no_blank_refuted",
    "C62_dot_refuted",
    "C62_twice_refuted",
    "C62_mark_refuted"
   ],
   "note": "Round trip over all histories of additions, and reading of any list of texts with distinct names (undefined exactly for an odd number of words). Refuted: missing final blank, dot without number, second write, group named like the mark. The Ogawa writer's writeGroupMembership stores nothing (it only returns true) and is not modelled."
  },
  {
   "property": "C63",
   "status": "proved",
   "theorems": [
    "C63_dense_round_trip",
    "C63_sparse_round_trip",
    "C63_layer",
    "C63_dense_file",
    "C63_any_group",
    "C63_load_any",
    "C63_read_sizes",
    "C63_wide_refuted",
    "C63_new_refuted",
    "C63_cleared_refuted",
    "C63_one_voxel_refuted"
   ],
   "note": "Round trips for dense and sparse levels, both alone and inside a file written by any calls (C63_layer, C63_dense_file), reading of any tree of groups with fitting numbers (C63_any_group, C63_load_any, C63_read_sizes). Refuted: wide attributes, a field that was only constructed, a cleared one, a level of one voxel. Threads are C37."
  },
  {
   "property": "C64",
   "status": "proved",
   "theorems": [
    "C64_proxies",
    "C64_all_proxies",
    "C64_proxies_agree",
    "C64_any_file",
    "C64_value_refuted",
    "C64_no_sizes_refuted",
    "C64_mip_levels_refuted",
    "C64_empty_partition_refuted",
    "C64_mip_sizes_refuted"
   ],
   "note": "C64_proxies, C64_all_proxies (the first file of an output object, as C58_listing), C64_proxies_agree (any file with names that are C strings), C64_any_file. Findings: C64_no_sizes_refuted, C64_mip_levels_refuted, C64_empty_partition_refuted, C64_mip_sizes_refuted, C64_value_refuted. Unlike in Ogawa files (C57_vector_refuted) scalar and vector proxies are told apart."
  },
  {
   "property": "C65",
   "status": "proved",
   "theorems": [
    "C65_open",
    "C65_round_trip",
    "C65_same_listings",
    "C65_reopen_refuted",
    "C65_failed_open_refuted",
    "C65_metadata_leaks_refuted",
    "C65_switch_refuted",
    "C65_early_metadata_refuted",
    "C65_no_file_refuted",
    "C65_scalar_names_refuted",
    "C65_closed_refuted",
    "C65_read_layers_refuted",
    "C65_next_file",
    "C65_next_kind_refuted"
   ],
   "note": "C65_open (dispatch, any history), C65_round_trip (either kind, the first file of an output object, any calls; the files of both kinds as in C23 and C58), C65_same_listings. Writing the memberships in between is C62. Findings: C65_reopen_refuted, C65_failed_open_refuted, C65_metadata_leaks_refuted, C65_switch_refuted, C65_early_metadata_refuted, C65_no_file_refuted, C65_scalar_names_refuted, C65_closed_refuted, C65_read_layers_refuted."
  },
  {
   "property": "C66",
   "status": "proved",
   "theorems": [
    "C66_any_schedule",
    "C66_finishes",
    "C66_opened_once",
    "C66_whole_archive",
    "C66_accepted",
    "C66_rejected",
    "C66_given_streams",
    "C66_failed_for_ever",
    "C66_past_the_end_refuted",
    "C66_replaced_refuted",
    "C66_no_streams_refuted",
    "C66_same_header_refuted"
   ],
   "note": "Adaptive thread programs over shared streams with one mutex per stream; invariant over all schedules gives the sequential result, termination bound and no deadlock; instantiated with the C16 reader. Refuted: reads past the end, replaced files, zero streams, equal headers."
  },
  {
   "property": "C67",
   "status": "partial",
   "theorems": [
    "C67_finishes",
    "C67_opens",
    "C67_once",
    "C67_suffix",
    "C67_suffix_refuted",
    "C67_version_not_loaded",
    "C67_history",
    "C67_history_defined",
    "C67_into_existing_partial",
    "C67_at_first_use_refuted",
    "C67_before_use_refuted",
    "C67_shadowed_refuted"
   ],
   "note": "Proved for every system and history: loading ends (C67_finishes), opens the plugin files in path order and calls each registration function once (C67_opens), never opens two files of one name (C67_once), which names count (C67_suffix, C67_version_not_loaded), and exactly which registrations are in force after any history (C67_history, C67_history_defined). Plugins loaded into a factory that exists register all their classes and nothing is lost (C67_into_existing_partial). The full claim is false, and refuted for every system: the constructor of the factory loads the plugins before ClassFactory::ms_instance is set, so each plugin's call of ClassFactory::singleton() makes another factory that is destroyed when the outer one takes its place; after the first use of Field3D no class of any plugin exists, and no later load brings one back (C67_at_first_use_refuted). Loading before the first use keeps the classes of the first plugin only (C67_before_use_refuted). A file that cannot be loaded hides a good plugin of the same name later on the path (C67_shadowed_refuted). Files named 'so' or 'a.so.' are opened too (C67_suffix_refuted)."
  },
  {
   "property": "C68",
   "status": "partial",
   "theorems": [
    "C68_contents",
    "C68_sampled",
    "C68_only_given",
    "C68_cached_bounds",
    "C68_make_min_max",
    "C68_mip_transform_refuted",
    "C68_wrapper",
    "C68_kept",
    "C68_fields_refuted",
    "C68_min_max_misses_refuted",
    "C68_make_twice_refuted",
    "C68_make_transform_refuted",
    "C68_dense_min_dropped_refuted",
    "C68_optimisation_refuted"
   ],
   "note": "Proved for every history in which no MIP field is added while a transform is set: contents, sizes, answers, min/max sources and cached bounds are as specified (C68_contents, C68_sampled, C68_only_given, C68_cached_bounds, C68_make_min_max). The full property is false: with a transform set, adding a MIP field or making minima and maxima reads a flag that the MIP wrapper's constructor never writes (C68_mip_transform_refuted); fields() forgets earlier calls, min/max queries miss fields, makeMinMax uses the wrong transform, dense minima are dropped (the other _refuted theorems). A wrapper on its own keeps its cached bounds in step with its transform (C68_wrapper), and all fields given as minima and maxima are kept (C68_kept)."
  },
  {
   "property": "C69",
   "status": "partial",
   "theorems": [
    "C69_output",
    "C69_merge",
    "C69_make_mip",
    "C69_only_output",
    "C69_missing_input",
    "C69_overwrites_input_refuted",
    "C69_metadata_refuted",
    "C69_unsupported_class_refuted",
    "C69_crash_refuted",
    "C69_make_twice_refuted",
    "C69_second_file_refuted"
   ],
   "note": "Proved for both tools and all Ogawa inputs made by one use of an output object, whose fields are named and do not crash makeMIP (C69_output, C69_merge, C69_make_mip, C69_only_output, C69_missing_input). The full claim is false: an input named as output is destroyed (C69_overwrites_input_refuted), global metadata is lost (C69_metadata_refuted), f3dmakemip drops other classes silently (C69_unsupported_class_refuted), crashes when the data window is not the extents (C69_crash_refuted) and makes minima of minima when run again (C69_make_twice_refuted), and the layers of an input that was its writer's second file are dropped (C69_second_file_refuted). Missing: HDF5 inputs and outputs."
  },
  {
   "property": "C70",
   "status": "proved",
   "theorems": [
    "C70_defined",
    "C70_bounded",
    "C70_constant",
    "C70_double",
    "C70_centre",
    "C70_monotone",
    "C70_error",
    "C70_double_constant_refuted",
    "C70_infinite_neighbour_refuted",
    "C70_undefined_refuted"
   ],
   "note": "All parts are proved for every position and every finite field (C70_defined, C70_bounded, C70_constant, C70_double, C70_centre, C70_monotone, C70_error); double fields need voxels below 2^1019. The arithmetic is Flocq's IEEE 754 (round to nearest even, no fused multiply-add). That double fields do not keep the range exactly, that an infinite voxel makes the centres of its neighbours NaN, and that a NaN or far position is undefined are shown by the three _refuted theorems."
  },
  {
   "property": "C71",
   "status": "proved",
   "theorems": [
    "C71_level",
    "C71_monotone",
    "C71_levels",
    "C71_constant",
    "C71_error",
    "C71_overflow_refuted",
    "C71_position_refuted"
   ],
   "note": "Proved for all levels of every base of at most 2^24 voxels per axis without offset (C71_levels, C71_constant, C71_error) and for one level with any padding (C71_level, C71_monotone). Float and double voxels must be below half of the largest number: otherwise the average of equal voxels is infinite (C71_overflow_refuted). Beyond voxel 2^23 of a level the positions are not floats and wrong voxels are read (C71_position_refuted). Arithmetic as in C70; storage, threads and skipping of empty blocks as in C34-C36."
  },
  {
   "property": "C72",
   "status": "proved",
   "theorems": [
    "C72_samples",
    "C72_linear",
    "C72_constant",
    "C72_constant_refuted",
    "C72_nan_time_refuted",
    "C72_span_refuted",
    "C72_infinite_refuted"
   ],
   "note": "Proved for all finite times below 2^127 and components below half of the largest number (C72_samples, C72_linear, C72_constant). Outside that, or if more is asked, it fails: equal samples are not reproduced exactly between them, because 1 - t is rounded to float (C72_constant_refuted); a sample whose time is NaN hides its predecessor (C72_nan_time_refuted); times too far apart give NaN (C72_span_refuted); an infinite value spoils the sample before it (C72_infinite_refuted). Imath's lerp and lerpfactor are modelled from their published definitions."
  },
  {
   "property": "C73",
   "status": "partial",
   "theorems": [
    "C73_any_bytes_partial",
    "C73_any_bytes_strict",
    "C73_stored",
    "C73_failed",
    "C73_kinds",
    "C73_light_kinds_refuted",
    "C73_complete_archive_calls",
    "C73_complete_archive",
    "C73_string",
    "C73_value",
    "C73_cut_off_refuted",
    "C73_wrap_refuted",
    "C73_memory_refuted",
    "C73_sibling_refuted",
    "C73_cycle_refuted",
    "C73_string_refuted",
    "C73_value_refuted"
   ],
   "note": "Proved for all bytes and all calls (C73_any_bytes_partial, C73_stored, C73_failed, C73_kinds, C73_complete_archive_calls, C73_complete_archive, C73_string, C73_value), with front() of an empty vector taken as harmless; it is formally undefined and happens for cut off files and groups recorded with no children only (C73_any_bytes_strict, C73_cut_off_refuted). More cannot be claimed: offset + size wraps around (C73_wrap_refuted), a 24 byte file makes the reader take any amount of memory (C73_memory_refuted), one damaged child hides its siblings (C73_sibling_refuted), groups can be cyclic (C73_cycle_refuted), a light group of more than eight children says that it has neither groups nor data (C73_light_kinds_refuted), readString writes outside its buffer for a recorded size of 2^64 - 1 (C73_string_refuted), readData reports success after a failed read (C73_value_refuted)."
  },
  {
   "property": "C74",
   "status": "partial",
   "theorems": [
    "C74_open",
    "C74_dense",
    "C74_dense_values",
    "C74_layer_read",
    "C74_layer_partial",
    "C74_mip",
    "C74_mip_levels",
    "C74_mip_load_partial",
    "C74_same_readers",
    "C74_kindless_refuted",
    "C74_stranger_refuted",
    "C74_class_refuted",
    "C74_dense_refuted",
    "C74_sparse_refuted",
    "C74_extents_refuted",
    "C74_mip_load_refuted"
   ],
   "note": "Proved for all archives with readable entries: opening, listing, mappings and metadata (C74_open), exactly when a dense layer is harmful (C74_dense) and the value of every voxel when its data is complete (C74_dense_values), which layers are read and with which metadata (C74_layer_read), any layer under soundness conditions on its recorded numbers (C74_layer_partial), exactly when a MIP layer is harmful and which levels it then has (C74_mip, C74_mip_levels), what loading a level gives (C74_mip_load_partial). That every archive is read or refused is false of the code: C74_kindless_refuted, C74_stranger_refuted, C74_class_refuted, C74_dense_refuted, C74_sparse_refuted, C74_extents_refuted, C74_mip_load_refuted give archives for each way it fails. The conditions for sparse layers are sufficient, not shown to be necessary. MAC layers are never read from Ogawa archives (their reader returns a null pointer)."
  },
  {
   "property": "C75",
   "status": "proved",
   "theorems": [
    "C75_bytes",
    "C75_units",
    "C75_unambiguous",
    "C75_monotone",
    "C75_least_refuted",
    "C75_whole_unit_refuted"
   ],
   "note": "Floats follow IEEE 754 (Flocq); the printed decimal is the nearest one, ties to even, as glibc prints. C75_least_refuted: the least 64-bit count is negated, which is undefined. C75_whole_unit_refuted: one byte below a GB reads 1024.000 MB."
  },
  {
   "property": "C76",
   "status": "proved",
   "theorems": [
    "C76_close",
    "C76_far",
    "C76_between",
    "C76_exact",
    "C76_position",
    "C76_level",
    "C76_bounded",
    "C76_half_constant",
    "C76_monotone",
    "C76_side",
    "C76_double_constant_refuted"
   ],
   "note": "Floats follow IEEE 754 (Flocq), no fused multiply-add; std::pow of two is exact. The weights of the two levels are floats and need not add up to one, so a constant double field is not kept exactly between levels (C76_double_constant_refuted); half fields keep it (C76_half_constant). C76_position holds up to level 24."
  },
  {
   "property": "C77",
   "status": "partial",
   "theorems": [
    "C77_defined",
    "C77_constant",
    "C77_centre",
    "C77_finite",
    "C77_error_partial",
    "C77_error_refuted",
    "C77_overflow_refuted",
    "C77_not_a_number_refuted"
   ],
   "note": "Definedness, exactness at voxel centres, exactness on equal voxels and the size bound are proved at every position. The error bound against the exact cubic sample (C29) is proved along one axis through voxel centres; between those lines it is false (C77_error_refuted: rows one unit apart are rounded to equal ones, and the sample jumps by 1), so only the part that holds is proved. C77_overflow_refuted and C77_not_a_number_refuted show why the other hypotheses are needed."
  },
  {
   "property": "C78",
   "status": "proved",
   "theorems": [
    "C78_level",
    "C78_level_exact",
    "C78_levels",
    "C78_levels_exact",
    "C78_largest_refuted",
    "C78_nan_refuted",
    "C78_position_refuted"
   ],
   "note": "Bounds hold for all voxels, without hypotheses on their values. Exactness needs voxels that differ from the filter's initial value: C78_largest_refuted and C78_nan_refuted show that a row of the largest float, or of NaN, is left at zero. C78_position_refuted shows why coordinates must stay below 2^23. makeMinMax's first step, resampling to a lower resolution, is C53, in exact arithmetic."
  },
  {
   "property": "C79",
   "status": "proved",
   "theorems": [
    "C79_bounds",
    "C79_bounds_exact",
    "C79_copied",
    "C79_covered",
    "C79_half_refuted",
    "C79_infinite_refuted",
    "C79_fraction_refuted",
    "C79_large_refuted"
   ],
   "note": "Only separableResample; resample, which visits all three axes at once, is C53, in exact arithmetic. Averages of several voxels are not in the claim: C79_half_refuted shows that their sum overflows half. C79_infinite_refuted shows that an infinite voxel spoils its neighbour even at the same size. C79_fraction_refuted: at other factors a voxel does not bound all it overlaps, by design of the filter. C79_large_refuted: a size just below 2^22 at which the choice is wrong."
  },
  {
   "property": "C80",
   "status": "proved",
   "theorems": [
    "C80_single",
    "C80_multiple",
    "C80_mip_multiple",
    "C80_short_refuted",
    "C80_flag",
    "C80_mip_flag_refuted",
    "C80_mip_remap_refuted",
    "C80_bounds_refuted"
   ],
   "note": "Arithmetic is a parameter, so the statements hold for rounded arithmetic too. C80_single says what sampling one point is; C80_multiple and C80_mip_multiple that sampling many is that for each. Findings: C80_mip_flag_refuted and C80_mip_remap_refuted (MIPFieldWrapper's constructor leaves doWsBoundsOptimization indeterminate; setOsToWs and sampleMIPMultiple read it), C80_bounds_refuted (bounds that miss a point of the field, as bounds rounded to float can, drop it). FieldGroup::sampleMultiple and sampleMIPMultiple, which call these functions, pass a size_t where the functor takes a size_t pointer and so cannot be instantiated; they are not modelled."
  },
  {
   "property": "C81",
   "status": "proved",
   "theorems": [
    "C81_bits",
    "C81_allocated",
    "C81_double",
    "C81_defined",
    "C81_release",
    "C81_double_refuted",
    "C81_infinite_refuted",
    "C81_release_sign_refuted"
   ],
   "note": "C28 in floating point. Findings: C81_double_refuted (in an unallocated block of double the generic interpolator is a unit in the last place off the constant, the sparse one is not), C81_infinite_refuted (an infinite empty value is infinite through the sparse interpolator and not a number through the generic one), C81_release_sign_refuted. No fused multiply-add; dynamically loaded fields are not in this model."
  },
  {
   "property": "C82",
   "status": "proved",
   "theorems": [
    "C82_nearly",
    "C82_found",
    "C82_missed_refuted",
    "C82_found_refuted",
    "C82_overflow_refuted"
   ],
   "note": "C40 in floating point, for boxes (mappings by a matrix); the planes of a frustum and the transform of the ray into the box are exact arithmetic in C40 and not in this model. Findings: C82_missed_refuted and C82_found_refuted (exactness is false both ways at an edge), C82_overflow_refuted (with finite coordinates near the largest double a box in full view is missed). Directions that are tiny but not zero, and rays in the plane of a face, are the findings of C40."
  },
  {
   "property": "C83",
   "status": "proved",
   "theorems": [
    "C83_in_range",
    "C83_corners",
    "C83_monotone",
    "C83_exact",
    "C83_round_trip",
    "C83_same_voxel",
    "C83_centres",
    "C83_local_round_trip",
    "C83_face_refuted"
   ],
   "note": "One dimension; the code computes the three alike and apart. Finding: C83_face_refuted (a point on the lower face of a voxel may come back in the voxel below: in extents from -60 to -22, -29 comes back below -29). The functions are also the last step of the frustum mapping; matrices are in C84."
  },
  {
   "property": "C84",
   "status": "proved",
   "theorems": [
    "C84_affine",
    "C84_conversions",
    "C84_round_trip",
    "C84_identity",
    "C84_monotone",
    "C84_infinite_refuted"
   ],
   "note": "C30 in floating point, for the matrices as stored: how they are built and inverted (Imath) is not in this model, nor are fused multiply-add and curves of matrices at other times than nought. Finding: C84_infinite_refuted (an infinite coordinate makes the other coordinates not a number, through the identity too)."
  },
  {
   "property": "C85",
   "status": "proved",
   "theorems": [
    "C85_defined",
    "C85_bounded",
    "C85_alone",
    "C85_parts",
    "C85_face",
    "C85_monotone",
    "C85_error",
    "C85_alone_refuted"
   ],
   "note": "IEEE 754 binary64 model of both MAC linear interpolators. For half and float fields each component of a sampled vector stays within the faces of that component around the position; the single-component function returns a double and stays within a few units in the last place (refuted without that allowance: C85_alone_refuted); exact at face centres; monotone; an error bound against the exact model of C49; a component of the vector is the single component converted. Assumes finite faces, faces up to 2^1019 in double fields, no fused multiply-add."
  },
  {
   "property": "C86",
   "status": "proved",
   "theorems": [
    "C86_cell",
    "C86_monotone",
    "C86_face",
    "C86_there_and_back",
    "C86_overflow_refuted"
   ],
   "note": "IEEE 754 model of uCenter, vCenter, wCenter and of the values convertCellCenteredToMAC leaves in faces, for half, float and double. Bounds, monotonicity, error bound, value at the border, there-and-back. Assumes values of which two can be added (C86_overflow_refuted without); rotation is not modelled; the loops are those of C39."
  },
  {
   "property": "C87",
   "status": "proved",
   "theorems": [
    "C87_defined",
    "C87_bounded",
    "C87_centre",
    "C87_monotone",
    "C87_error",
    "C87_double",
    "C87_constant_refuted",
    "C87_overflow_refuted"
   ],
   "note": "Per component, with the products and sums rounded to the component type as operator*(S, Vec3<T>) and Vec3::operator+ do. Components within a sixteenth of the range, so that no intermediate sum overflows. C87_constant_refuted: a constant field of float vectors (0.1f) is sampled above its value at 5/16 and below it at 0.3, unlike scalar fields (C70_constant). C87_overflow_refuted: a field of vectors all equal to the largest float is sampled as infinite at 0.6, so finite components alone do not suffice."
  },
  {
   "property": "C88",
   "status": "proved",
   "theorems": [
    "C88_level",
    "C88_constant",
    "C88_scalar",
    "C88_mean",
    "C88_half_overflow_refuted"
   ],
   "note": "One level, one component, default filter, per component type: sums, products and the division are made in the component type as Vec3's operators do, because ComputationType widens only scalar half. Several levels follow by repeating C88_level, whose result meets its own premise. The test of the sum against zero is made per component instead of per vector. C88_half_overflow_refuted: vectors of half of 40000 average to infinity where scalars of half (C71) keep 40000."
  }
 ]
}
