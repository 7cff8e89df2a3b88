# Formal model of Field3D: design

Target: imageworks/Field3D at the pinned commit in `/repo`. Prover: Coq 8.16.1.
Nothing in `/repo` is built or run; the model is written from the source text.

## Layout

- `rocq/theories/Model/*.v` definitions only. Each definition cites the file and
  lines it models, and says where it simplifies.
- `rocq/theories/Spec/*.v` small specifications that do not mention the model's
  helpers (finite maps, trees, boxes, "visits each voxel once", ...).
- `rocq/theories/Proof/*.v` lemmas and proofs.
- `rocq/theories/Props/*.v` the final theorems, one file per property group, each
  with a concrete example that meets its hypotheses and `Print Assumptions`.
- `MANIFEST.json` maps property ids to theorem names.
- `seeded/LOG.jsonl` records wrong-program experiments.

## Modelling conventions

- C++ `int` is `Z`. Overflow is modelled only where a property is about it
  (C06: conversion to `float`); elsewhere theorems assume sizes in range or say so.
- `float`/`double` arithmetic is modelled as exact real arithmetic (`R`) for
  interpolation, mappings and filters, so rounding error is out of scope. The one
  place where rounding decides memory safety (`SparseField::setupBlocks`) uses an
  exact integer model of round-to-nearest-even to 24 bits.
- Undefined behaviour (out-of-range index, null dereference, freed storage) is a
  distinct result (`None` or an error constructor), never a default value.
- Loops without an obvious bound are relations (small-step) or fuelled functions
  with an explicit out-of-fuel result that theorems exclude.
- Concurrency: interleaving of atomic steps; each step is one shared-memory access
  or one critical section. Weak memory is not modelled.
- Where the claim a user relies on is false of the code, the model keeps the code's
  behaviour and a theorem with suffix `_refuted` exhibits a concrete counterexample;
  the strongest true version found is proved next to it.

## Per-property plan

| Id | Model | Proof |
|----|-------|-------|
| C01 | dense field record (windows, memory size, flat list), ops | refinement to a total map by induction over op list |
| C02 | iterator state (x,y,z) and `++` | iterated `++` equals explicit enumeration; refutation for one-axis-empty box |
| C03 | dense iterator with buffer position | invariant position = index(x,y,z) |
| C04 | sparse field record (block list, order, windows), ops | refinement to a total map |
| C05 | `releaseBlocks` walk with `validSize`, both predicates | frame lemma per block, induction over block walk |
| C06 | `setupBlocks` with float rounding on integers | arithmetic; concrete refutation above 2^24 |
| C07 | as C04 | frame lemmas |
| C08 | sparse iterator state | invariant |
| C09 | grain bounds functions | existence and uniqueness of the grain of a voxel |
| C10 | `indexToCoord`, `setSize`, `clipBounds` | arithmetic |
| C11 | `copyFrom`, `matchDefinition`, `sameDefinition`, `isIdentical` over dense and sparse fields with null, matrix (curves, `extractSHRT` by Gram-Schmidt, angles a parameter) and frustum mappings; the mapping extents follow the field (`CopyM`) | reachable fields `built`; loops by enumeration of the window; self copy, NaN, empty source, shear and tolerance refuted |
| C12 | cache manager state machine (fields, blocks, clock list, hand) | invariant over histories |
| C13 | as C12 | invariant: memUse = sum of loaded sizes, list = loaded blocks without repeats |
| C14 | eviction loop as step function | measure; infinite run for all-pinned |
| C15 | interleaving semantics of readers and eviction | invariant over reachable states |
| C16 | Ogawa file bytes, writer objects, reader | invariant over write histories; reader recursion on a tree |
| C17 | write-call log, reader on every prefix | invariant over prefixes |
| C18 | attribute groups over the Ogawa tree | induction over children |
| C19 | `WriteBlockOp` per-access interleaving | concrete schedules for refutation; invariant for the true case |
| C20 | `ReadBlockOp` interleaving | invariant |
| C21 | sparse layer encode/decode over attribute store | round trip; concrete malformed file |
| C22 | dense layer encode/decode | round trip; concrete malformed file |
| C23 | output file state (partitions, layers), reader | invariant over write sequences |
| C24 | five maps; write order; read trial order | induction |
| C25 | mapping encode/decode | round trip; refutation for frustum |
| C26 | cache map with string keys | history induction; key collision refutation |
| C27 | trilinear formula over R with clamped indices | nra/lra, convexity |
| C28 | sparse fast path over R | case split on block interior |
| C29 | cubic formula over R | field/ring; refutations |
| C30 | mapping functions over R, 4x4 matrices | ring/field |
| C31 | eight-corner box transform | convexity |
| C32 | curve sample list | sortedness invariant |
| C33 | the separable passes over dense and sparse fields, filter kernels over R (`OpsM`, `FilterM`) | loop invariant: each pass equals the weighted mean over all source voxels, weights vanish outside the support; extremum variant for min/max |
| C34 | `makeMIP` from the base field to the list of levels, all threads included (`MipM`) | schedule-independent pass lemma, induction over levels, fuel bound from the sizes; box weights by case analysis |
| C35 | shared counter and work items (`MipM`); single memory accesses of stores into one sparse block (`MipRaceM`) | invariants over all schedules; partition of the target; refutation schedules |
| C36 | `checkInputEmpty` on sparse fields (`MipM`) | loop invariant plus interval arithmetic; refutation on a concrete reachable field |
| C37 | `Model/MipLazyM.v`: double-checked locking, one member access per step, any number of threads, failing loads, clones | invariant (owner's stage / all levels plain) by induction over schedules; decreasing measure for no deadlock; refutations for early publication and for the clone's mutex |
| C38 | refcount interleaving | invariant; refutation |
| C39 | `MACField` storage as three arrays with the index arithmetic of the code; component iterators; both conversions with the rotation as a parameter | refinement to three maps from faces to values over all histories; a loop invariant that every face set so far has its target value; refutations by computation |
| C40 | slab method, planes of a frustum, mapping dispatch over R | convexity of the image of a cube, lra/nra; refutations |
| C41 | loop with early return | refutation and true variant |
| C42 | pattern list fold with abstract glob matcher | list induction |
| C43 | string parsing and expansion | list/string induction |
| C44 | floor/ceil functions; also the conversions in IEEE double arithmetic | lra; the centre of an int voxel is a double |
| C45 | registration map | history induction |
| C46 | `adjustedMIPFieldMapping`, `mappingChanged`, `getVsMIPCoord`, `computeOffset` over R (`MipMapM`) | a level's matrices are the base's times one constant matrix, so the curves agree at all times; refutations for scaling fields and for mappings that are not adjusted |
| C47 | sampling loops of a group over arbitrary fields | fold induction; box image lemma for the shortcut |
| C48 | `GetWsBounds` loop | corner lemma for affine images |
| C49 | the two MAC interpolators | reduction to the interpolation lemmas of C27 and C29 on the faces of a component |
| C50 | copy constructors, assignment, `setMapping`, `setSize` over a heap of mapping objects (`CloneM`) | simulation by a list of values; pointers pairwise distinct unless assigned |
| C51 | `MIPLinearInterp` on the levels of C34 (`MipMapM`) | search lemma over the level sizes; reduction to C27 and C34 |
| C52 | the three `coordinateSystem` functions of `CoordSys.h` (`CoordSysM`), used with the matrix mapping of C30 | floor and ceiling as adjoints of the grid; reduction to C30's lemmas |
| C53 | `makeMinMax`, the pre-filtered query and the group's set-up (`MinMaxM`), on top of the MIP levels of C34, the mappings of C46 and the boxes of C41 | every voxel of a level summarises the cells below it, by induction over the levels; choice of the level is irrelevant for the bound; refutations on concrete fields |
| C54 | the Ogawa writer and reader of MIP fields and the loading of a level (`MipIOM`), generic in the format of a level; used with the dense and sparse formats of C21, C22 and the paths of C18 | the layer is a list of entries, looked up by name; induction over the levels; loading follows the path component by component |
| C55 | `const_iterator` of a dynamically loaded sparse field with its reference counting (`IterCacheM`) on top of the iterator of C08 and the cache of C12; the generation number of a block's data stands for the address it was loaded to, so that reading evicted data is `UB` | invariant relating the counts to the positions of the live iterators; induction over programs |
| C56 | Dense, sparse and MAC writers and readers of the HDF5 back end over a model of a group as named attributes and data sets (`Hdf5M`, `Hdf5MacM`); null pointer, exception, `false` and `UB` are different outcomes; passes of any size and on-demand blocks | the writer's result in closed form (what is added to the group), then the reader on any group with the same layer; induction over blocks and passes |
| C57 | `readProxyLayer`, the two listings of proxies, and `EmptyField` (`ProxyM`), on the trees of C23; a member that was never set is `UB` | what the three writers store, computed from their results; induction over partitions and layers against `read_layers`; permutations for the listing of everything; case analysis on any written group for safety |
| C58 | partitions and layers of HDF5 files (`Hdf5FileM`): paths, groups and attributes of a tree; the output and input objects with their partition lists; links listed in any order | invariant of the output object against the list of partitions written so far; the listing is a permutation of it, then refinement of the readers to a filter of the accepted calls; safety by induction over the listings; concrete refutations |
| C59 | writing and reading of metadata as attributes (`Hdf5FileM`) | the attributes are a list without repeated names; a strictly increasing map is determined by its lookups |
| C60 | HDF5 readers and writers of null, matrix and frustum mappings (`Hdf5MapM`) over the attribute lists of C58; histories of the two frustum curves | names of samples are free for every later index, so the attribute list is written in closed form and its names differ; lookups do not depend on order; rising curves with the same values are equal |
| C61 | sparse field objects, dynamic or in memory, over the cache of C12, with a record of references whose block array was deleted (`FieldCacheM`) | simulation by a list of maps; invariant: no cached entry of a deleted array, nothing pinned between operations, distinct references per field; the guarded cache operations equal those of C12 under the invariant |
| C62 | additions to the membership map, its attributes, the reader with its string splitting (`MembersM`, `h_members`) | tokens characterised by a relation on texts; closed form of the attribute list; lookups do not depend on order. C58 and C60 hold for files with memberships |
| C63 | writer and reader of MIP fields in HDF5 groups, paths of levels, late loading (`MipH5M`) | closed form of the group after writing; reader evaluated on any group with the same MIP data; C56 for each level, C58 for the layer in a file |
| C64 | proxies of layers of HDF5 files (`ProxyH5M`) | what the four writers leave in a group; the session invariant of C58; induction over partitions and layers together with the reading of layers for any file |
| C65 | the classes users open files with, which choose between Ogawa and HDF5, over a disk of named files (`FrontM`) | induction over calls on input and output objects; each kind refines the writers of C23 and C58, whose theorems then give what is read |
| C66 | the streams of an open archive with their mutexes, lazy opening and fall-back to stream 0; thread programs as trees of reads (`StreamsM`) | invariant: a mutex's holder alone uses its stream, the rest of each program gives the sequential result; decreasing measure; lock order for absence of deadlock |
| C67 | `PluginLoader.cpp` and `ClassFactory::singleton` over an arbitrary search path, directories and libraries (`Model/PluginM.v`): the two functions call each other, modelled with fuel. Static initialisers of libraries and messages are left out. | Fuel is shown to suffice; the loops are shown to open the first file of each unseen name; the mutual recursion is solved by induction on the number of unseen files. The full claim is false (refuted for every system); partial theorem for a factory that exists already. |
| C68 | contents of a field group: the wrappers in each vector, with transform, operator, optimisation flag (possibly undefined), the auxiliary fields, the answers of load (GroupSetM.v) | refinement of a list-based holding over all histories of calls, up to order; undefined behaviour exactly when a MIP field meets a transform |
| C69 | f3dmerge and f3dmakemip on Ogawa files: which layers are visited, what is written, exit status and files left (ToolM.v), on the file model of C23; what MIP, minimum and maximum of a field are is a parameter (C34, C53) | composition of the reading and writing theorems of C23, up to order; the layers visited by partition, name and value type are a partition of the fields |
| C70 | linear interpolation in IEEE 754 arithmetic, for half, float and double (`FloatM`, on Flocq's `BinarySingleNaN`) | each operation is its real counterpart followed by rounding; monotonicity of rounding; the computed weights sum to one within 2 ulps, so a constant is kept within 16 ulps of double, which is less than half the gap between floats; then rounding to float cannot pass a float; C27 for the exact sample |
| C71 | box-filtered MIP levels in IEEE arithmetic (`FloatMipM`): the float positions, the interval of source voxels, the weights, the sums in the computation type and the conversion back, level by level | the positions are exact below 2^24, both source voxels get weight one however their centres are rounded, so a row is the rounded average of two values; doubling is exact, hence a rounded average stays between its arguments; error by the standard model of rounding, three passes per level, against C34's specification |
| C72 | time curves in IEEE arithmetic (`FloatCurveM`): the list operations of `CurveM` on float times, `lerpfactor` and `lerp` | the list of samples is, with numbers for times, that of C32; the difference of two floats is rounded relatively even if it is subnormal, so the factor is in [0, 1] and near the exact one; error by the standard model |
| C73 | the Ogawa reader on arbitrary bytes (`DamagedM`): a stream that fails and stays failed, partial reads into buffers that keep the rest, wrapping `uint64_t` sums, `resize` that throws above a memory limit, `front()` of an empty vector as an option; `readString`, `readData` | invariant over all call sequences (positions and sizes are `uint64_t`s, and what the reader believes is what the file says unless the stream failed); complete archives by C16's invariant of the writer: every entry of every group points to a whole record |
| C74 | opening any tree of groups and data as a Field3D file and reading a dense, sparse or MIP layer of it, with the size of the extents computed in `int` by the mapping, and loading a level of a MIP layer (`ForeignM`, on top of `OgM`, `FileM`, `MetaM`, `MappingIOM`, `FieldIOM`, `MipIOM`); null pointers and buffers overrun are `UB` | look-ups and listings equal `find` and `flat_map` over the entries by induction over children; definedness through open, mappings, metadata; the dense and MIP readers' `UB` characterised exactly; the sparse reader by C20's thread invariant and counting flags; each condition but the one on the window shown needed by an archive that breaks it |
| C75 | `bytesToString`: sign, units, conversion of the count to float, division, printing with three digits | the division by a power of two is exact; the printed number is the nearest multiple of 1/1000; error bound from the relative error of rounding to float; monotone because rounding is; least count and 1024.000 MB as refutations |
| C76 | `MIPLinearInterp` in floating point: voxel sizes, choice of the levels, weights, `getVsMIPCoord`, mixing of two levels; samples of a level as in C70 | sizes are exact doublings; the weight is the rounding of the true fraction; a mix is monotone in both samples, so bounds follow from the mix of two equal samples; rounding to half then falls back into the range; a constant double field as refutation |
| C77 | cubic interpolation of a half, float or double field in Flocq's binary formats, scalar and vector expressions (which round at different places), with the delta test on rounded values (`Model/FloatCubicM.v`) | defined wherever the coordinate has an index; voxel centres and equal voxels exactly; bounded by five times the largest voxel; within 700 roundings of C29's sample along an axis through voxel centres (`C77_error_partial`), false elsewhere (`C77_error_refuted`); overflow and not-a-number refutations |
| C78 | the analytic branch of MIP filtering with the minimum and maximum filters, positions in float, comparisons on Flocq values with infinities and NaN (`Model/FloatMinMaxM.v`) | comparison embedded in the reals; one row by induction over its voxels; three passes; induction over levels; refutations for the sentinel, NaN and far positions |
| C79 | separable resampling with the box, minimum and maximum filters: sizes, positions, distances and weights in float, sums in the field's own type, on Flocq values (`Model/FloatResampleM.v`) | relative error of the scaled positions (seven units) against the margin of half a scaled voxel; which voxels have weight one; induction over a row; three passes; refutations by computation |
| C80 | the four sampling functions of `FieldSampler`, over arrays of cells with out-of-bounds access as UB and all arithmetic left open, and the flags of the field wrappers (`MultiM`) | loops over points by an entrywise invariant (entries below are done, others are as before), loops over fields by composing it; every branch adds the same value as the single-point function; refutations by computation |
| C81 | the sparse and the generic linear interpolator in binary64 on a sparse field of half, float or double, and `==` of these types in `releaseBlocks` (`FloatSparseM`) | case analysis of the fast path as in C28: same eight cells, or an unallocated block; there a constant is sampled exactly (C70) and noughts keep their sign because no weight is negative or a negative nought |
| C82 | the slab loop of `detail::intersect` in binary64, infinities, signed noughts and comparisons included (`FloatRayM`) | error of one rounded quotient of a rounded difference; invariant of the loop: the interval so far is the exact set so far but for a slack that is monotone in the parameter |
| C83 | `setExtents`, `localToVoxel`, `voxelToLocal` and Imath's `lerpfactor` in binary64 (`FloatMapM`) | integers are exact and rounding is monotone, so borders stay borders; error of each rounding added up; floor of a number within the error |
| C84 | the four conversions of `MatrixFieldMapping` with Imath's `multVecMatrix` in binary64 (`FloatMatM`) | error of a sum of four terms; the weight is exactly one; rounding is monotone |
| C85 | both `LinearMACFieldInterp::sample` functions in binary64 (`Model/FloatMacM.v`), on face values of half, float or double | each axis gives two weights in [0, 1] that sum to one within rounding and two faces less than one voxel away (no subtraction along the component's own axis); bounds, monotonicity and exactness at face centres and an error bound against C49 from the rounded trilinear sum of C70; refuted: in a float field the component alone stays in range |
| C86 | cell values of a MAC field and the faces `convertCellCenteredToMAC` makes from cells, in the field's own arithmetic (`Model/FloatCentreM.v`), without rotation | the computed mean is the rounded half of the rounded sum (`avg` of C71), which is monotone and exact on equal arguments; refuted: finite for all finite faces |
| C87 | Model/FloatVecM: linear interpolation of vectors, one component, every product and sum rounded to the component type | per-level error bound from the relative error of the composed roundings; monotone roundings for order and sign; exact at centres; refutation by computation of the 0.1f field |
| C88 | Model/FloatMipVecM: one level of a MIP field of vectors, one component, accumulated in the component type; the zero test is taken per component | the row, pass and level lemmas of C71 again for sums in the component type; refutation by computation of the half field of 40000 |

## Trusted base

- Coq's kernel (8.16.1), checked again by `coqchk`.
- Axioms: only those of the standard library's real numbers, and only for theorems
  that mention `R`: `ClassicalDedekindReals.sig_forall_dec`,
  `FunctionalExtensionality.functional_extensionality_dep`, and where square roots
  or trigonometric functions occur `ClassicalDedekindReals.sig_not_dec`; theorems that use
  the library's exponential function or its extremum lemmas, and the theorems of C70 (through
  Flocq), also `Classical_Prop.classic`. Flocq adds no axiom; C44, C70 and C71 rely on its definition of
  IEEE 754 arithmetic (`BinarySingleNaN`). `coqchk` also
  lists seven constants of `Coq.ssr.ssrunder` because a standard library module it
  loads contains them; no theorem here depends on them (see below).
- The translation from C++ to Gallina, done by hand, with citations.

## Not modelled

The HDF5 library itself: C56 models a group as named attributes (lists of integers) and
named data sets of scalars, in which a name can be used once, a chunked data set needs
positive chunk sides and chunks below 4 GiB, a whole data set is read at once and reading with
the type that was written gives the stored scalars. C58 and C59 model a file as a tree of
such groups. The Ogawa writer stores no group memberships (it only returns true). Also not modelled: compression
library, boost, glob matcher (`fnmatch`), filesystem, command line options, f3dinfo, f3dsample, floating-point
rounding except in C06, C44, C70, C71, C72, C75 to C79 and C81 to C88, weak memory effects. Resampling: names, attributes, mappings and
metadata of the result; vector-valued fields. That a resized field has its mapping compute the size of the extents in
`int`, which is undefined for extents wider than an `int`, is modelled only for archives of any contents (C74).

## Assumptions per theorem

What `Print Assumptions` prints for each theorem in `Props`.

<!-- assumptions -->
- Closed under the global context (391 theorems): `C01_dense_large_window_refuted`, `C01_dense_refines_map`, `C01_dense_resize_throws_iff_empty`, `C02_advance`, `C02_iterate_field`, `C02_iterate_subset`, `C02_iterate_thin_empty_window_refuted`, `C03_dense_iterator`, `C03_dense_iterator_whole`, `C04_sparse_refines_map`, `C05_max_abs_small_change_refuted`, `C05_release_all_equal_exact`, `C05_release_all_equal_keeps_values`, `C05_release_count`, `C05_release_max_abs`, `C06_block_grid_covers_window`, `C06_long_axis_refuted`, `C07_unallocated_reads_empty_value`, `C07_voxel_count_and_memory`, `C07_write_is_local`, `C08_const_iterator`, `C08_dynamic_iterator_aligned`, `C08_dynamic_iterator_offset_refuted`, `C08_dynamic_iterator_overread_refuted`, `C08_mutable_iterator_fill`, `C09_block_iterator_bounds_at_origin`, `C09_block_iterator_bounds_refuted`, `C09_block_iterator_visits`, `C09_dense_grains_inside`, `C09_dense_grains_partition`, `C09_sparse_grain_is_block`, `C09_sparse_grains_partition`, `C10_clip_bounds`, `C10_index_to_coord_inverse`, `C10_index_to_coord_onto`, `C10_is_in_bounds`, `C10_set_size_padding`, `C10_voxel_count`, `C10_voxel_count_empty_refuted`, `C12_histories_never_fail`, `C12_lazy_read_returns_file_value`, `C12_lazy_read_terminates`, `C13_accounting_exact`, `C13_activate_loaded`, `C13_concurrent_accounting`, `C13_concurrent_limit_refuted`, `C13_concurrent_overshoot_bounded`, `C13_destroy_forgets`, `C13_flush_empties`, `C13_limit_respected`, `C14_all_pinned_livelock_refuted`, `C14_step_bound`, `C14_terminates_iff`, `C14_two_passes`, `C15_counts_return_to_zero`, `C15_flush_breaks_readers_refuted`, `C15_no_deadlock`, `C15_pinned_block_stays_loaded`, `C15_reader_sees_file_data`, `C16_any_calls`, `C16_empty_data_refuted`, `C16_reader_interface`, `C16_round_trip`, `C17_bad_magic_rejected`, `C17_crash_between_writes`, `C17_early_close_refuted`, `C17_log_is_file`, `C17_nothing_visible_before_close`, `C17_other_version_undefined`, `C17_torn_header_refuted`, `C17_torn_root_refuted`, `C17_torn_write`, `C18_attribute_type`, `C18_empty_name_refuted`, `C18_find_attribute`, `C18_find_by_path`, `C18_find_dataset`, `C18_names`, `C18_slash_in_name_refuted`, `C18_string_exact`, `C19_hang_refuted`, `C19_no_gap_order`, `C19_no_gap_terminates`, `C19_one_thread`, `C19_order_refuted`, `C19_overread_refuted`, `C19_zero_threads_refuted`, `C20_read_blocks`, `C20_write_then_read`, `C21_block_count_refuted`, `C21_gap_refuted`, `C21_order_4_refuted`, `C21_round_trip`, `C21_write_lazy_refuted`, `C22_oversize_refuted`, `C22_round_trip`, `C22_unsized_refuted`, `C22_wrong_type`, `C23_all_layers_read`, `C23_dense_layer`, `C23_empty_layer_name_refuted`, `C23_empty_partition_name_refuted`, `C23_failed_mapping_refuted`, `C23_layer_called_mapping_refuted`, `C23_layers_read`, `C23_listing`, `C23_mapping_changed_refuted`, `C23_second_file_listing_refuted`, `C23_write_outcomes`, `C24_assign`, `C24_empty_name_refuted`, `C24_file`, `C24_last_write_wins`, `C24_round_trip`, `C24_slash_refuted`, `C24_two_types_refuted`, `C25_frustum_reads_default`, `C25_frustum_round_trip_refuted`, `C25_frustum_write_partial`, `C25_frustum_write_refuted`, `C25_layer_mapping`, `C25_matrix_round_trip`, `C25_matrix_samples`, `C25_null_round_trip`, `C26_keys_refuted`, `C26_lookup`, `C26_lookup_race_refuted`, `C26_read_twice`, `C26_stale_refuted`, `C32_samples`, `C34_covered`, `C35_allocated_block`, `C35_fill_race_refuted`, `C35_items_partition`, `C35_lost_write_refuted`, `C35_one_writer`, `C35_separate_blocks`, `C35_use_after_free_refuted`, `C37_clone`, `C37_clone_shares_mutex_refuted`, `C37_loaded_once`, `C37_no_deadlock`, `C37_no_ub`, `C37_one_reader`, `C37_only_requested`, `C37_ready_when_returned_refuted`, `C37_retry`, `C37_same_for_all`, `C37_throws_only_on_failure`, `C37_usable_at_rest`, `C38_concurrent`, `C38_concurrent_serial`, `C38_double_delete_refuted`, `C38_late_read_refuted`, `C38_sequential`, `C42_comma_refuted`, `C42_exclusions_only`, `C42_match`, `C42_match_attribute`, `C42_no_patterns`, `C42_order`, `C42_split`, `C42_string`, `C43_existing`, `C43_expansion`, `C43_largest_end_refuted`, `C43_leading_mark_refuted`, `C43_no_prefix_refuted`, `C43_no_start_refuted`, `C43_unresolved`, `C45_field_names`, `C45_first_wins`, `C45_stable`, `C45_unregistered`, `C54_any_group`, `C54_cleared_refuted`, `C54_dense_round_trip`, `C54_load_any`, `C54_new_refuted`, `C54_read_sizes`, `C54_setup`, `C54_sparse_round_trip`, `C55_balanced`, `C55_copy_count_refuted`, `C55_copy_refuted`, `C55_counts`, `C55_end_iterator_livelock_refuted`, `C55_flush_refuted`, `C55_pinned`, `C55_reads`, `C55_traversal`, `C56_block_count_refuted`, `C56_dense`, `C56_dense_accepted`, `C56_dense_wrong_type`, `C56_large_block_refuted`, `C56_mac_ogawa_refuted`, `C56_one_scalar_refuted`, `C56_scalar_count_refuted`, `C56_sparse`, `C56_sparse_accepted`, `C56_sparse_wrong_type`, `C56_write_lazy_refuted`, `C57_all_proxies`, `C57_any_file`, `C57_empty_field`, `C57_empty_partition_refuted`, `C57_mip_levels_refuted`, `C57_proxies`, `C57_proxies_agree`, `C57_proxy_value_refuted`, `C57_unstored_layer_refuted`, `C57_vector_refuted`, `C58_all_layers_read`, `C58_both_kinds_refuted`, `C58_dangling_link_refuted`, `C58_dense_layer`, `C58_failed_layer_refuted`, `C58_failed_mapping_refuted`, `C58_hidden_partition_refuted`, `C58_layer_group`, `C58_layers_read`, `C58_listing`, `C58_open_safe`, `C58_second_file_refuted`, `C58_second_open_refuted`, `C58_slash_opens_refuted`, `C58_slash_read_refuted`, `C58_wide_attribute_refuted`, `C58_write_outcomes`, `C59_accepted`, `C59_nul_name_refuted`, `C59_nul_refuted`, `C59_read_any`, `C59_retry_refuted`, `C59_round_trip`, `C59_two_types_refuted`, `C59_wide_refuted`, `C60_frustum_round_trip`, `C60_frustum_samples`, `C60_frustum_write_refuted`, `C60_frustum_write_ub`, `C60_layer_mapping`, `C60_matrix_round_trip`, `C60_no_count_refuted`, `C60_null_round_trip`, `C60_old_matrix`, `C60_open_safe`, `C60_read_safe`, `C60_wide_refuted`, `C61_copy_after_block_empty_refuted`, `C61_flush_after_overwrite`, `C61_overwrite_in_memory_refuted`, `C61_read_terminates`, `C61_release_refuted`, `C61_same_values`, `C61_write_is_lost`, `C62_dot_refuted`, `C62_mark_refuted`, `C62_no_blank_refuted`, `C62_read_any`, `C62_round_trip`, `C62_twice_refuted`, `C63_any_group`, `C63_cleared_refuted`, `C63_dense_file`, `C63_dense_round_trip`, `C63_layer`, `C63_load_any`, `C63_new_refuted`, `C63_one_voxel_refuted`, `C63_read_sizes`, `C63_sparse_round_trip`, `C63_wide_refuted`, `C64_all_proxies`, `C64_any_file`, `C64_empty_partition_refuted`, `C64_mip_levels_refuted`, `C64_mip_sizes_refuted`, `C64_no_sizes_refuted`, `C64_proxies`, `C64_proxies_agree`, `C64_value_refuted`, `C65_closed_refuted`, `C65_early_metadata_refuted`, `C65_failed_open_refuted`, `C65_metadata_leaks_refuted`, `C65_next_file`, `C65_next_kind_refuted`, `C65_no_file_refuted`, `C65_open`, `C65_read_layers_refuted`, `C65_reopen_refuted`, `C65_round_trip`, `C65_same_listings`, `C65_scalar_names_refuted`, `C65_switch_refuted`, `C66_accepted`, `C66_any_schedule`, `C66_failed_for_ever`, `C66_finishes`, `C66_given_streams`, `C66_no_streams_refuted`, `C66_opened_once`, `C66_past_the_end_refuted`, `C66_rejected`, `C66_replaced_refuted`, `C66_same_header_refuted`, `C66_whole_archive`, `C67_at_first_use_refuted`, `C67_before_use_refuted`, `C67_finishes`, `C67_history`, `C67_history_defined`, `C67_into_existing_partial`, `C67_once`, `C67_opens`, `C67_shadowed_refuted`, `C67_suffix`, `C67_suffix_refuted`, `C67_version_not_loaded`, `C68_cached_bounds`, `C68_contents`, `C68_dense_min_dropped_refuted`, `C68_fields_refuted`, `C68_kept`, `C68_make_min_max`, `C68_make_transform_refuted`, `C68_make_twice_refuted`, `C68_min_max_misses_refuted`, `C68_mip_transform_refuted`, `C68_only_given`, `C68_optimisation_refuted`, `C68_sampled`, `C68_wrapper`, `C69_crash_refuted`, `C69_make_mip`, `C69_make_twice_refuted`, `C69_merge`, `C69_metadata_refuted`, `C69_missing_input`, `C69_only_output`, `C69_output`, `C69_overwrites_input_refuted`, `C69_second_file_refuted`, `C69_unsupported_class_refuted`, `C73_any_bytes_partial`, `C73_any_bytes_strict`, `C73_complete_archive`, `C73_complete_archive_calls`, `C73_cut_off_refuted`, `C73_cycle_refuted`, `C73_failed`, `C73_kinds`, `C73_light_kinds_refuted`, `C73_memory_refuted`, `C73_sibling_refuted`, `C73_stored`, `C73_string`, `C73_string_refuted`, `C73_value`, `C73_value_refuted`, `C73_wrap_refuted`, `C74_class_refuted`, `C74_dense`, `C74_dense_refuted`, `C74_dense_values`, `C74_extents_refuted`, `C74_kindless_refuted`, `C74_layer_partial`, `C74_layer_read`, `C74_mip`, `C74_mip_levels`, `C74_mip_load_partial`, `C74_mip_load_refuted`, `C74_open`, `C74_same_readers`, `C74_sparse_refuted`, `C74_stranger_refuted`, `C75_least_refuted`, `C75_unambiguous`, `C79_covered`, `C80_bounds_refuted`, `C80_flag`, `C80_mip_flag_refuted`, `C80_mip_multiple`, `C80_mip_remap_refuted`, `C80_multiple`, `C80_short_refuted`, `C80_single`, `C81_release_sign_refuted`.
- Depends on `ClassicalDedekindReals.sig_forall_dec` (3 theorems): `C35_shared_block_refuted`, `C56_mac_accepted`, `C56_mac_data_size_refuted`.
- Depends on `ClassicalDedekindReals.sig_forall_dec`, `FunctionalExtensionality.functional_extensionality_dep` (75 theorems): `C27_affine`, `C27_at_voxel_centres`, `C27_bounded`, `C27_constant`, `C27_fields_read_maps`, `C27_lipschitz`, `C28_sparse_fast_path`, `C28_sparse_interpolates`, `C29_affine`, `C29_at_voxel_centres`, `C29_below_window_refuted`, `C29_constant`, `C29_interpolant_overshoot`, `C29_monotone_partial`, `C29_monotone_refuted`, `C29_negative_window_refuted`, `C29_overshoot_bounded`, `C30_depth_in_step`, `C30_frustum_perspective`, `C30_frustum_uniform`, `C30_local_voxel`, `C30_procedural_partial`, `C30_procedural_refuted`, `C31_affine`, `C31_contains`, `C31_projective_refuted`, `C32_bounded`, `C32_linear`, `C33_max`, `C33_min`, `C33_refused`, `C34_cropped`, `C34_max`, `C34_min`, `C35_no_threads_refuted`, `C39_component_iterator`, `C39_component_iterator_whole`, `C39_copy`, `C39_faces`, `C39_lvalue_assignment_refuted`, `C39_resize_clears_refuted`, `C40_box`, `C40_depth_planes`, `C40_negative_zero_refuted`, `C40_tiny_direction_refuted`, `C44_continuous_bounds`, `C44_discrete_bounds_partial`, `C44_discrete_bounds_refuted`, `C44_large_bounds_refuted`, `C44_round_trip`, `C44_there_and_back`, `C44_voxel_of_position`, `C46_centres`, `C46_coord`, `C46_next`, `C46_offset`, `C46_shared_grid`, `C47_contributions`, `C47_inside`, `C47_sample`, `C49_cubic`, `C49_cubic_below_window_refuted`, `C49_linear`, `C51_bounds`, `C51_sample`, `C52_aligned`, `C52_box`, `C52_defined`, `C52_extents`, `C52_extents_count`, `C52_one`, `C53_empty_refuted`, `C53_unreduced`, `C56_mac`, `C56_mac_wrong_type`.
- Depends on `ClassicalDedekindReals.sig_forall_dec`, `ClassicalDedekindReals.sig_not_dec`, `FunctionalExtensionality.functional_extensionality_dep` (69 theorems): `C11_copy`, `C11_copy_identical`, `C11_copy_of_new_refuted`, `C11_identical_transforms`, `C11_is_identical`, `C11_mapping_follows`, `C11_match_definition`, `C11_nan_refuted`, `C11_same_mapping`, `C11_self_copy_refuted`, `C11_shear_refuted`, `C11_symmetric_refuted`, `C30_defined`, `C30_frustum_default`, `C30_frustum_single_slice_refuted`, `C30_frustum_voxel_size`, `C30_matrix_exists`, `C30_matrix_in_force`, `C30_null`, `C30_point_in_field`, `C30_time_zero`, `C30_voxel_size`, `C30_voxel_size_perspective_refuted`, `C30_world_local`, `C30_world_voxel`, `C31_world_to_voxel`, `C39_constant_round_trip`, `C39_to_cells`, `C39_to_mac`, `C40_behind_refuted`, `C40_default_camera`, `C40_frustum`, `C40_frustum_field`, `C40_group`, `C40_matrix`, `C40_mirrored_refuted`, `C40_parallel_refuted`, `C41_early_return_refuted`, `C41_min_max_partial`, `C41_negative_refuted`, `C41_remapped_refuted`, `C41_sampled_refuted`, `C46_growing_refuted`, `C46_identity_refuted`, `C46_level`, `C46_unadjusted`, `C46_world`, `C47_bounds_optimization`, `C48_bounds`, `C48_window_refuted`, `C50_assign`, `C50_assign_extents_refuted`, `C50_assign_refuted`, `C50_assigned_data`, `C50_clone`, `C50_untouched`, `C50_values`, `C52_extents_refuted`, `C52_stable`, `C52_voxels`, `C53_cost`, `C53_cropped_refuted`, `C53_group`, `C53_ignored`, `C53_late_refuted`, `C53_made`, `C53_query`, `C53_reduced_refuted`, `C53_unfiltered`.
- Depends on `ClassicalDedekindReals.sig_forall_dec`, `ClassicalDedekindReals.sig_not_dec`, `Classical_Prop.classic`, `FunctionalExtensionality.functional_extensionality_dep` (134 theorems): `C33_bounds`, `C33_constant`, `C33_formula`, `C33_narrow_box_refuted`, `C34_bounds`, `C34_dropped_data_refuted`, `C34_levels`, `C34_mean_of_eight`, `C34_odd_offset_refuted`, `C34_zero_offset`, `C35_each_item_once`, `C35_schedule_independent`, `C36_gaussian_refuted`, `C36_mitchell_refuted`, `C36_skip_sound`, `C39_rotation_refuted`, `C39_tiny_rotation_refuted`, `C44_rounding_round_trip`, `C44_rounding_voxel`, `C51_mip`, `C70_bounded`, `C70_centre`, `C70_constant`, `C70_defined`, `C70_double`, `C70_double_constant_refuted`, `C70_error`, `C70_infinite_neighbour_refuted`, `C70_monotone`, `C70_undefined_refuted`, `C71_constant`, `C71_error`, `C71_level`, `C71_levels`, `C71_monotone`, `C71_overflow_refuted`, `C71_position_refuted`, `C72_constant`, `C72_constant_refuted`, `C72_infinite_refuted`, `C72_linear`, `C72_nan_time_refuted`, `C72_samples`, `C72_span_refuted`, `C75_bytes`, `C75_monotone`, `C75_units`, `C75_whole_unit_refuted`, `C76_between`, `C76_bounded`, `C76_close`, `C76_double_constant_refuted`, `C76_exact`, `C76_far`, `C76_half_constant`, `C76_level`, `C76_monotone`, `C76_position`, `C76_side`, `C77_centre`, `C77_constant`, `C77_defined`, `C77_error_partial`, `C77_error_refuted`, `C77_finite`, `C77_not_a_number_refuted`, `C77_overflow_refuted`, `C78_largest_refuted`, `C78_level`, `C78_level_exact`, `C78_levels`, `C78_levels_exact`, `C78_nan_refuted`, `C78_position_refuted`, `C79_bounds`, `C79_bounds_exact`, `C79_copied`, `C79_fraction_refuted`, `C79_half_refuted`, `C79_infinite_refuted`, `C79_large_refuted`, `C81_allocated`, `C81_bits`, `C81_defined`, `C81_double`, `C81_double_refuted`, `C81_infinite_refuted`, `C81_release`, `C82_found`, `C82_found_refuted`, `C82_missed_refuted`, `C82_nearly`, `C82_overflow_refuted`, `C83_centres`, `C83_corners`, `C83_exact`, `C83_face_refuted`, `C83_in_range`, `C83_local_round_trip`, `C83_monotone`, `C83_round_trip`, `C83_same_voxel`, `C84_affine`, `C84_conversions`, `C84_identity`, `C84_infinite_refuted`, `C84_monotone`, `C84_round_trip`, `C85_alone`, `C85_alone_refuted`, `C85_bounded`, `C85_defined`, `C85_error`, `C85_face`, `C85_monotone`, `C85_parts`, `C86_cell`, `C86_face`, `C86_monotone`, `C86_overflow_refuted`, `C86_there_and_back`, `C87_bounded`, `C87_centre`, `C87_constant_refuted`, `C87_defined`, `C87_double`, `C87_error`, `C87_monotone`, `C87_overflow_refuted`, `C88_constant`, `C88_half_overflow_refuted`, `C88_level`, `C88_mean`, `C88_scalar`.
<!-- end assumptions -->
