{"id": "C01", "title": "Dense field behaves as a map from voxels to values", "statement": "For a DenseField, after any sequence of setSize, clear and per-voxel writes, value(i,j,k) at any voxel of the current data window returns exactly the last value written to that voxel since the last resize, else the last clear value, else the value-initialised default. A write to one voxel never changes another, and no access to an in-window voxel touches memory outside the field's buffer.", "quantifier": "every data window (any min corner, including negative), every finite history of resizes, clears and writes, every voxel in the window", "why_tests_cant": "A test samples a few windows and voxels; aliasing or overflow of the linear index for some other window shape or origin would go unseen.", "anchors": ["export/DenseField.h: DenseField::fastValue, fastLValue, sizeChanged, clear", "export/Field.h: ResizableField::setSize"]}
{"id": "C02", "title": "Field iteration visits every voxel of the box exactly once, x fastest", "statement": "Iterating from cbegin()/begin() to cend()/end() over a whole data window or a sub-box visits each voxel of that box exactly once in x-fastest, then y, then z order, stops, and at each step the iterator's x,y,z name the voxel visited. This holds for every non-empty box. For a box that is empty on one axis only, the whole-field begin() check does not detect emptiness and the loop never meets end().", "quantifier": "every box of any size and origin, every position of the iteration", "why_tests_cant": "Tests iterate a handful of boxes; termination and exactly-once coverage are claims about all box shapes, including thin and offset ones.", "anchors": ["export/Field.h: Field::const_iterator, Field::cbegin, Field::cend, WritableField::begin, end"]}
{"id": "C03", "title": "Dense iterator pointer agrees with its voxel coordinate", "statement": "A DenseField iterator over any sub-box of the data window dereferences, at every step, to the storage cell of the voxel it reports through x,y,z; so writing through the iterator equals writing lvalue(x,y,z), and the iterator becomes equal to end exactly after the last voxel.", "quantifier": "every data window, every non-empty sub-box contained in it, every number of increments", "why_tests_cant": "The pointer is advanced incrementally with wrap-around logic; only a proof covers every sub-box shape.", "anchors": ["export/DenseField.h: DenseField::iterator, const_iterator"]}
{"id": "C04", "title": "Sparse field behaves as a map from voxels to values", "statement": "For an in-memory SparseField, after any sequence of setSize, setBlockOrder, clear, setBlockEmptyValue, per-voxel writes, reads and releaseBlocks with a lossless predicate, value(i,j,k) at any in-window voxel equals the value held by a plain map subjected to the same operations. No in-window access leaves the block array or a block's storage.", "quantifier": "every data window, block order, history of operations, and voxel", "why_tests_cant": "Interaction of block allocation, release and block-empty values over arbitrary histories is unbounded.", "anchors": ["export/SparseField.h: SparseField::fastValue, fastLValue, clear, setBlockOrder, setBlockEmptyValue, releaseBlocks, setupBlocks, SparseBlock"]}
{"id": "C05", "title": "releaseBlocks never changes what a lossless predicate promises", "statement": "releaseBlocks with CheckAllEqual leaves the value of every in-window voxel unchanged and frees a block exactly when it is allocated and all its in-window voxels hold one value. releaseBlocks with CheckMaxAbs(t) frees only blocks none of whose in-window voxels has |v| < t, and gives all their voxels the value of one of them; so a changed voxel keeps |v| >= t but may change by any amount, even in sign. The returned count is the number of blocks freed.", "quantifier": "every sparse field state reachable by the API, every threshold, every voxel", "why_tests_cant": "Partially covered boundary blocks and padding voxels give case splits that sampling can miss.", "anchors": ["export/SparseField.h: SparseField::releaseBlocks, Sparse::CheckAllEqual, Sparse::CheckMaxAbs"]}
{"id": "C06", "title": "Every in-window voxel has a block", "statement": "After setSize or setBlockOrder, the block grid covers the data window: for every in-window voxel the computed block index is inside the block array and distinct voxels get distinct (block, offset) addresses. This holds whenever the window's resolution on each axis is at most 2^24; above that the single-precision computation of the block resolution can come out too small and an in-window voxel addresses a block outside the array.", "quantifier": "every data window and block order", "why_tests_cant": "The failure needs a resolution above 2^24 on an axis, which no test allocates; the success claim ranges over all smaller ones.", "anchors": ["export/SparseField.h: SparseField::setupBlocks, blockId, getBlockCoord, getVoxelInBlock"]}
{"id": "C07", "title": "Sparse allocation is lazy and local", "statement": "Reading any voxel never allocates a block. Writing voxel v through lvalue allocates at most the one block containing v, leaves all other blocks' allocation and data untouched, and a freshly allocated block reads as its previous empty value everywhere except at v. memSize and voxelCount depend only on which blocks are allocated.", "quantifier": "every sparse field state, every voxel", "why_tests_cant": "A frame property over all other voxels and blocks.", "anchors": ["export/SparseField.h: fastLValue, fastValue, SparseBlock::resize, voxelCount, memSize"]}
{"id": "C08", "title": "Sparse iterators enumerate the box and read the right values", "statement": "SparseField iterators over any non-empty sub-box of the data window visit each voxel of the box exactly once in x-fastest order, and dereference to value(x,y,z) at every step, whatever the allocation state.", "quantifier": "every window, block order, allocation state, sub-box, step", "why_tests_cant": "The iterator caches block pointers and steps across block boundaries; all alignments of box and blocks must be covered.", "anchors": ["export/SparseField.h: SparseField::const_iterator, iterator"]}
{"id": "C09", "title": "Grains partition the data window", "statement": "For dense and sparse fields the boxes returned by getGrainBounds for grain indices 0..numGrains-1, intersected with the data window, are pairwise disjoint and cover every in-window voxel exactly once, so per-grain parallel processing touches each voxel exactly once. The block_iterator's bounding boxes, in contrast, are only correct when the data window starts at the origin.", "quantifier": "every non-empty data window, block order, voxel", "why_tests_cant": "Disjointness and coverage over all windows.", "anchors": ["export/DenseField.h: numGrains, getGrainBounds", "export/SparseField.h: numGrains, getGrainBounds, block_iterator"]}
{"id": "C10", "title": "Linear index and coordinate conversions are inverse", "statement": "indexToCoord is the inverse of x-fastest linear indexing of a resolution: distinct indices below the voxel count give distinct in-range coordinates and every coordinate is hit. setSize(size,padding) yields extents [0,size-1] and a data window grown by padding on all sides. clipBounds yields exactly the voxels in both boxes.", "quantifier": "all resolutions, indices, sizes, paddings, boxes", "why_tests_cant": "Universal arithmetic identities.", "anchors": ["export/Field.h: indexToCoord, ResizableField::setSize, clipBounds"]}
{"id": "C11", "title": "Copying a field preserves definition and values", "statement": "copyFrom gives the target the source's extents, data window and, at every in-window voxel, the source's value, for all combinations of dense and sparse source and target. matchDefinition/sameDefinition/isIdentical agree: after copyFrom, isIdentical holds, and isIdentical implies equal definitions and equal values at every voxel.", "quantifier": "all pairs of fields, all windows", "why_tests_cant": "Quantifies over all pairs of fields and all voxels.", "anchors": ["export/Field.h: ResizableField::copyFrom, matchDefinition, sameDefinition, isIdentical"]}
{"id": "C12", "title": "Dynamically loaded sparse fields read the file's data, whatever was evicted", "statement": "With memory limiting on, value(i,j,k) of a lazily loaded sparse field returns the value stored in the file for that voxel, after any history of reads from any number of fields, cache flushes, changes of the memory limit, reference counting of blocks and destruction of other fields.", "quantifier": "every history of cache operations over any number of files, fields and blocks, any limit", "why_tests_cant": "The eviction order depends on the whole history; tests exercise one.", "anchors": ["export/SparseFile.h: SparseFileManager::activateBlock, incBlockRef, decBlockRef, removeFieldFromCache", "src/SparseFile.cpp: deallocateBlocks, deallocateBlock, flushCache, addBlockToCache", "export/SparseField.h: fastValue"]}
{"id": "C13", "title": "Cache accounting is exact", "statement": "At every point of every sequential history the manager's reported memory use equals the summed size of the blocks currently loaded, each loaded block is in the cache list exactly once, and no unloaded block is in it. With memory limiting on, after an activation the memory use is at most the limit plus the size of the block just loaded, as long as enough unpinned blocks exist.", "quantifier": "every history of cache operations", "why_tests_cant": "An invariant over unbounded histories.", "anchors": ["src/SparseFile.cpp: addBlockToCache, deallocateBlock, deallocateBlocks, flushCache", "export/SparseFile.h: activateBlock, removeFieldFromCache"]}
{"id": "C14", "title": "Eviction terminates unless everything is pinned", "statement": "deallocateBlocks terminates within two passes of the clock hand per freed block whenever the cache contains an unpinned block; if every cached block is pinned and the limit is exceeded, it never terminates.", "quantifier": "every cache state", "why_tests_cant": "Termination over all states, and non-termination, are not testable.", "anchors": ["src/SparseFile.cpp: SparseFileManager::deallocateBlocks"]}
{"id": "C15", "title": "A pinned block is never freed by eviction while it is pinned, under any interleaving", "statement": "If every reader increments a block's reference count before activating it and decrements it after its last access, then in every interleaving of any number of threads reading any blocks with eviction, each access finds the block loaded with the file's data. A cache flush, which ignores reference counts, breaks this.", "quantifier": "every number of threads, every interleaving at lock granularity, every set of blocks", "why_tests_cant": "Schedules are unbounded; a stress test samples a negligible part.", "anchors": ["export/SparseFile.h: activateBlock, incBlockRef, decBlockRef, Reference", "src/SparseFile.cpp: deallocateBlock, flushCache", "export/SparseField.h: SparseField::fastValue"]}
{"id": "C16", "title": "Ogawa archive round trip", "statement": "Any finite tree of groups and non-empty data elements written through the Ogawa output API and then closed reads back through the input API as the same tree: same children in the same order, same bytes in each data element. An empty data element is not preserved: it becomes two children.", "quantifier": "every tree, every byte content, every depth and fan-out, every interleaving of writes to different open groups", "why_tests_cant": "Offsets are patched after the fact; correctness for all trees and write orders needs induction.", "anchors": ["src/OGroup.cpp: addGroup, addData, createData, freeze", "src/OStream.cpp", "src/OData.cpp", "src/OArchive.cpp", "src/IGroup.cpp", "src/IData.cpp", "src/IStreams.cpp", "src/IArchive.cpp"]}
{"id": "C17", "title": "Ogawa crash safety", "statement": "If the writer stops after any prefix of its write calls, a reader of the resulting file sees either an archive with an empty root group (before the root offset is patched) or the complete tree; it never sees a partial or garbled one. Only a properly closed archive reports itself frozen.", "quantifier": "every tree, every crash point between two write calls", "why_tests_cant": "All crash points of all write sequences.", "anchors": ["src/OStream.cpp: OStream::OStream, ~OStream, write, seek", "src/OArchive.cpp: ~OArchive", "src/OGroup.cpp: freeze", "src/IStreams.cpp: init"]}
{"id": "C18", "title": "Field3D string and attribute encoding round trip", "statement": "An attribute of any supported type written to a Field3D group under a non-empty name without '/' or NUL is found again by that name and type with the same value; strings survive iff they contain no NUL; lookup with a different type finds nothing; the first attribute of a name wins.", "quantifier": "every name, value, type and set of other attributes in the group", "why_tests_cant": "All strings, all sets of siblings.", "anchors": ["include/OgOAttribute.h", "include/OgIAttribute.h", "src/OgIGroup.cpp: findGroup", "src/OgUtil.cpp: readString, writeString, readDataType"]}
{"id": "C19", "title": "Parallel compressed block writing keeps block order", "statement": "When a sparse field is written with several I/O threads, the compressed blocks end up in the file in increasing block order, each allocated block exactly once, under every thread schedule. This holds for one thread, and for any number of threads when no unallocated block lies between two allocated ones (writing then also always ends); in general it fails: the unprotected advance of the write counter admits a schedule that terminates with two blocks swapped in the file, and one that never terminates. With zero threads nothing is written.", "quantifier": "every number of threads, every allocation pattern, every interleaving", "why_tests_cant": "The bad schedules need a three-way race; a test passes with overwhelming probability.", "anchors": ["src/SparseFieldIO.cpp: ThreadingState, WriteBlockOp"]}
{"id": "C20", "title": "Parallel block reading fills each block once with its own data", "statement": "When a sparse field is read with any number of I/O threads, under every schedule each allocated block's storage receives exactly the file's data element for that block, unallocated blocks are untouched, and no block is read by two threads.", "quantifier": "every number of threads, allocation pattern, interleaving", "why_tests_cant": "All schedules.", "anchors": ["src/SparseFieldIO.cpp: ReadThreadingState, ReadBlockOp, readData"]}
{"id": "C21", "title": "Sparse field file round trip", "statement": "Reading back a sparse field written to a file gives a field with the same extents, data window, block order, allocation and block-empty values, and equal value at every voxel; lazy loading and eager loading give the same values. The reader never writes outside the new field's block array for a file produced by the writer; a file whose stated block resolution is inconsistent with its data window makes it do so.", "quantifier": "every sparse field state, every file", "why_tests_cant": "All field states and all (also malformed) files.", "anchors": ["src/SparseFieldIO.cpp: writeInternal, read, readData", "export/SparseField.h: setupReferenceBlocks"]}
{"id": "C22", "title": "Dense field file round trip", "statement": "Reading back a dense field written to an Ogawa file gives the same extents, data window and voxel values. For a file whose data element is larger than the stated window the reader writes past the end of the field's buffer.", "quantifier": "every dense field state, every file", "why_tests_cant": "All field states and all (also malformed) files.", "anchors": ["src/DenseFieldIO.cpp: writeInternal, read, readData", "include/OgIDataset.h: getData"]}
{"id": "C23", "title": "No layer is lost or mixed up in a file", "statement": "Every layer accepted by the output file's writeScalarLayer/writeVectorLayer is returned when the file is read under the same partition and layer name, with its own data and a mapping identical to the one it was written with; writing the same name twice keeps both. This needs layer names that are non-empty, contain no '/' or NUL and differ from \"mapping\": a layer called \"mapping\" is silently lost.", "quantifier": "every sequence of layer writes with any names and mappings", "why_tests_cant": "Partition naming depends on the whole write history.", "anchors": ["src/Field3DFile.cpp: writeLayer, intPartitionName, removeUniqueId, makeIntPartitionName, createNewPartition, readPartitionAndLayerInfo, readLayers"]}
{"id": "C24", "title": "Metadata round trip", "statement": "Metadata set on a field behaves as five independent last-write-wins maps; after writing and reading the field every entry whose name is non-empty, without '/' or NUL and used with one type only comes back with the same value. If one name is used with two types, only one of them survives the file round trip.", "quantifier": "every set of metadata entries", "why_tests_cant": "All key sets and orders.", "anchors": ["export/FieldMetadata.h", "src/FieldMetadata.cpp", "src/Field3DFile.cpp: writeMetadata, readMeta"]}
{"id": "C25", "title": "Mapping file round trip", "statement": "A matrix mapping with any number of time samples written to a file reads back with the same samples. A frustum mapping does not: the Ogawa reader never loads its time samples, so every frustum mapping comes back as the default one.", "quantifier": "every mapping, every number of samples", "why_tests_cant": "All sample lists.", "anchors": ["src/FieldMappingIO.cpp: MatrixFieldMappingIO, FrustumFieldMappingIO"]}
{"id": "C26", "title": "Layer cache returns the field for the requested file and layer", "statement": "The field cache returns, for a file and layer path, either nothing or the live field most recently cached for that same file and layer. Keys are formed by joining with '/', so two different (file, layer) pairs with the same joined string are confused.", "quantifier": "every history of caching, releasing and lookups; all strings", "why_tests_cant": "All strings and histories.", "anchors": ["export/FieldCache.h: getCachedField, cacheField, key"]}
{"id": "C27", "title": "Linear interpolation is exact at voxel centres, bounded and affine-exact", "statement": "LinearFieldInterp at a voxel centre returns that voxel's value; every sample lies between the minimum and maximum of the (clamped) eight neighbours; affine data is reproduced exactly in the interior; constant data everywhere.", "quantifier": "every field, every sample position (exact arithmetic)", "why_tests_cant": "All real positions and field contents.", "anchors": ["export/FieldInterp.h: LinearFieldInterp::sample, LinearGenericFieldInterp::sample"]}
{"id": "C28", "title": "Sparse interpolation fast path equals the generic one", "statement": "LinearSparseFieldInterp returns the same value as the generic linear interpolation for every position, block order and allocation state.", "quantifier": "every sparse field, every position (exact arithmetic)", "why_tests_cant": "All alignments of the 2x2x2 stencil with blocks.", "anchors": ["export/SparseField.h: LinearSparseFieldInterp::sample"]}
{"id": "C29", "title": "Cubic interpolation passes through the samples and is monotone", "statement": "Cubic interpolation returns the voxel value at every voxel centre inside the window, reproduces constants everywhere and affine data in the interior. For windows starting at the origin only: with a negative window minimum, positions below 0.5 are clamped. The monotonic interpolant stays between its two middle samples when the data are monotone: this is false, it can overshoot.", "quantifier": "every field, every position (exact arithmetic)", "why_tests_cant": "All real positions and field contents.", "anchors": ["export/FieldInterp.h: CubicFieldInterp::sample, CubicGenericFieldInterp::sample, monotonicCubicInterpolant"]}
{"id": "C30", "title": "Voxel/local/world transforms are mutually inverse", "statement": "For a field with non-empty extents localToVoxel and voxelToLocal are inverse bijections taking the unit cube to the extents' voxel box; for a matrix mapping with an invertible local-to-world matrix, worldToVoxel and voxelToWorld are inverse at every time, and equal the composition through local space.", "quantifier": "every extents box, every invertible matrix, every point", "why_tests_cant": "All matrices and points.", "anchors": ["src/FieldMapping.cpp: setExtents, localToVoxel, voxelToLocal, MatrixFieldMapping::setLocalToWorld, updateTransform"]}
{"id": "C31", "title": "Transformed bounds are conservative", "statement": "worldToVoxel and localToWorld of a bounding box under an affine mapping return a box that contains the image of every point of the input box, and the smallest such box.", "quantifier": "every affine mapping, box and point", "why_tests_cant": "All points of all boxes.", "anchors": ["src/FieldMapping.cpp: worldToVoxel(Box3d), transformBounds"]}
{"id": "C32", "title": "Time curves interpolate their samples", "statement": "After any sequence of addSample calls a curve's samples are strictly increasing in time and represent the last value given per time; linear(t) returns the stored value at each sample time, the first/last value outside the range, and between two neighbouring samples their linear interpolation.", "quantifier": "every sequence of addSample calls, every t", "why_tests_cant": "All insertion orders and query times.", "anchors": ["export/Curve.h: Curve::addSample, Curve::linear"]}
{"id": "C33", "title": "Resampling preserves constants and respects data bounds", "statement": "Separable resampling with box, triangle or Gaussian filters reproduces constant fields, and every output voxel lies between the minimum and maximum input value; Min/Max filter outputs bound the inputs in their support from below/above.", "quantifier": "every field, resolution pair, voxel (exact arithmetic)", "why_tests_cant": "All resolutions and contents.", "anchors": ["export/Resample.h: separable, separableResample, BoxFilter, TriangleFilter, GaussianFilter, MinFilter, MaxFilter", "src/Resample.cpp"]}
{"id": "C34", "title": "MIP levels: halving, termination, box-filter averaging", "statement": "makeMIP with zero offset produces levels whose resolution is ceil(previous/2) per axis and stops; every level passes the MIP field's own sanity check; with a box filter each coarse voxel of an even-sized level is the mean of the eight fine voxels it covers; with the minimum or maximum filter each voxel of each level is the least or greatest of all base voxels it covers. With an odd offset the level resolutions can fail to decrease and makeMIP's setup throws.", "quantifier": "every base resolution, minimum size and offset, every content", "why_tests_cant": "All resolutions.", "anchors": ["export/MIPUtil.h: makeMIP, mipResample, mipSeparable", "src/MIPUtil.cpp: mipResolution, computeOffset", "export/MIPField.h: sanityChecks"]}
{"id": "C35", "title": "Parallel MIP filtering equals sequential filtering", "statement": "mipSeparable's work items cover every target voxel exactly once under any schedule and number of threads, and items write disjoint voxels, so the result is schedule-independent. With a sparse source whose block order is below the default, two threads may write into the same target block.", "quantifier": "every resolution, thread count, interleaving", "why_tests_cant": "All schedules.", "anchors": ["export/MIPUtil.h: MIPSeparableThreadOp, mipSeparable"]}
{"id": "C36", "title": "Skipping empty source blocks in MIP filtering is sound", "statement": "The sparse MIP filter's early-out skips a target block only if the filtered result there would be zero. This holds for filters with support at most one source-to-target unit; it fails for the Gaussian and Mitchell filters.", "quantifier": "every sparse field, filter and target block", "why_tests_cant": "All contents and alignments.", "anchors": ["export/MIPUtil.h: checkInputEmpty, MIPSeparableThreadOp", "export/Resample.h: support()"]}
{"id": "C37", "title": "Lazy MIP level loading happens at most once", "statement": "Under any interleaving of any number of threads asking for MIP levels, each level is loaded from disk at most once, every caller gets the loaded level, and levels not asked for are not loaded. A caller may, however, observe a level before its mapping is set.", "quantifier": "every number of threads and interleaving", "why_tests_cant": "Double-checked locking: all schedules.", "anchors": ["export/MIPField.h: loadLevelFromDisk, rawMipLevel, concreteMipLevel, updateAuxMembers"]}
{"id": "C38", "title": "Reference counting deletes exactly once", "statement": "An object managed by intrusive pointers is never deleted while a reference exists, and is deleted once the last one goes. With two threads releasing the last two references concurrently the object can be deleted twice, because the decrement and the zero test are separate steps.", "quantifier": "every history of copies and releases; every interleaving", "why_tests_cant": "All schedules.", "anchors": ["export/RefCount.h: RefBase::ref, unref, refcnt, intrusive_ptr_release"]}
{"id": "C39", "title": "MAC field faces and cell-centred conversion", "statement": "In a MAC field each face component is stored independently (writing one face never changes another), value at a cell is the mean of its two faces per axis, and converting a cell-centred field to MAC sets every face exactly once: interior faces to the mean of the two adjacent cells, boundary faces to the adjacent cell. Converting a constant field to MAC and back gives the same constant.", "quantifier": "every resolution and window origin, every content", "why_tests_cant": "All windows.", "anchors": ["export/MACField.h: u, v, w, value, sizeChanged", "export/MACFieldUtil.h: convertCellCenteredToMAC, convertMACToCellCentered"]}
{"id": "C40", "title": "Ray intersection interval is exact", "statement": "FieldGroup's ray intersection against one box reports an intersection exactly when some point of the ray at non-negative parameter lies in the box, and a parameter lies in the reported interval exactly when the point at it is in the box, for rays whose direction components are either zero or not close to it (the interval may begin at an earlier, negative parameter). The interval of a field is that of the image of its extents under its mapping and object transform, for matrix and perspective mappings.", "quantifier": "every ray, box, mapping and object transform (exact arithmetic)", "why_tests_cant": "All rays.", "anchors": ["export/FieldGroup.h: detail::intersect, GetIntersections, getIntersections"]}
{"id": "C41", "title": "Field group min/max bounds are conservative", "statement": "getMinMax over world bounds returns values that bound every voxel of every field in the group inside the bounds, and that are themselves values of voxels or what the caller passed. This fails when one field does not intersect the bounds: the loop returns at it, ignoring the rest. It also fails for voxels at negative coordinates.", "quantifier": "every group of fields and query box", "why_tests_cant": "All groups and orders.", "anchors": ["export/FieldSampler.h: getMinMax, getMinMaxMIP", "export/FieldGroup.h: getMinMax"]}
{"id": "C42", "title": "Name pattern matching: exclusion always wins, order does not matter", "statement": "A field name/attribute matches a list of patterns iff at least one positive pattern matches and no exclusion pattern matches; the result does not depend on the order or repetition of patterns.", "quantifier": "every list of patterns, every name and attribute, every glob matcher", "why_tests_cant": "All pattern lists.", "anchors": ["src/PatternMatch.cpp: match, split"]}
{"id": "C43", "title": "File sequence expansion", "statement": "A sequence pattern prefix<start>-<end>#suffix expands to exactly the names prefix i suffix for i from start to end in increasing order, none missing or repeated.", "quantifier": "every prefix, range and suffix", "why_tests_cant": "All strings and ranges.", "anchors": ["src/FileSequence.cpp: FileSequence"]}
{"id": "C44", "title": "Voxel coordinate conversion", "statement": "contToDisc(discToCont(i)) = i; contToDisc(x) is the voxel whose unit cell contains x; continuousBounds of a discrete box contains exactly the cells of its voxels. discreteBounds(continuousBounds(b)) is not b: it is one voxel larger on the upper side. discreteBounds contains the cells touched only when the corners are not fractional and negative (the int conversion truncates toward zero first), and continuousBounds is exact only below 2^24 (it converts through float). The first two hold in double arithmetic too, rounding included.", "quantifier": "every integer, real and box, every double", "why_tests_cant": "All reals.", "anchors": ["export/Field.h: contToDisc, discToCont, continuousBounds, discreteBounds"]}
{"id": "C45", "title": "Class registration: first wins, lookup is stable", "statement": "After any sequence of registrations createField(name) uses the first registered constructor for that class, unregistered names give null, and later registrations never change earlier answers.", "quantifier": "every sequence of registrations and lookups", "why_tests_cant": "All histories.", "anchors": ["src/ClassFactory.cpp: registerField, createField, registerFieldIO, createFieldIO"]}
{"id": "C47", "title": "Group sampling combines exactly the fields that contain the point", "statement": "Sampling a field group at a world position with the add operation returns the initial value plus the sum of the remapped sample of every field whose data window contains the position, and with the average operation their mean (zero if there is none). The group reports a point as inside exactly when one of its fields has it. The world-bounds shortcut for matrix mappings never changes a sample.", "quantifier": "every group of fields, position and remapping function (exact arithmetic)", "why_tests_cant": "All positions, transforms and group orders.", "anchors": ["export/FieldSampler.h: FieldSampler::sample, sampleMIP", "export/FieldGroup.h: FieldGroup::sample, intersects", "export/FieldWrapper.h: FieldWrapper"]}
{"id": "C48", "title": "Group world bounds contain every field", "statement": "The world bounds of a field group are the smallest box that contains the transformed extents of all its fields, so every position a field reports as its own lies in them, as long as data windows do not exceed extents.", "quantifier": "every group, affine mapping and object transform", "why_tests_cant": "All transforms.", "anchors": ["export/FieldGroup.h: FieldGroup::wsBounds, GetWsBounds"]}
{"id": "C49", "title": "MAC fields are interpolated at the faces", "statement": "Linear interpolation of a MAC field returns, for each component, the face value at the position of every face of that component, a value between those of the surrounding faces elsewhere, affine data exactly and constants everywhere. Cubic interpolation returns face values at faces, reproduces constants, affine data in the interior, and overshoots by a bounded amount; positions below the window continue the border value: this is false along the component's own axis.", "quantifier": "every field, every position (exact arithmetic)", "why_tests_cant": "All real positions and field contents.", "anchors": ["export/FieldInterp.h: LinearMACFieldInterp::sample, CubicMACFieldInterp::sample"]}
{"id": "C50", "title": "Copies of fields are independent", "statement": "A field made by clone() or by copying shows the same data, extents, data window, mapping, name, attribute and metadata as its source, and from then on nothing done to either of them - resizing, writing voxels, setting or changing the mapping, labels or metadata - is visible through the other. Assigning one field to another makes them show the same and leaves their data, labels and metadata independent.", "quantifier": "every history of creating, cloning, assigning, resizing, remapping, writing and labelling any number of dense or sparse fields", "why_tests_cant": "Aliasing shows only in particular histories; independence is a statement about all of them.", "anchors": ["export/Field.h: FieldRes copy constructor, setMapping, sizeChanged", "src/Field.cpp: FieldBase copy constructor", "export/SparseField.h: SparseField copy constructor, operator=, copySparseField, SparseBlock::copy", "export/DenseField.h: DenseField"]}
{"id": "C46", "title": "Positions agree between the levels of a MIP field", "statement": "The mapping of every level of a MIP field puts its voxels where the base has them: a position of a level and the position of the base that is the same place on the shared grid (voxels 2^l wide, beginning at the last multiple of 2^l not after the MIP offset) have the same world position at every time, the voxel position getVsMIPCoord() returns is that place, voxel sizes double from level to level, and the filter that makes a level is centred accordingly. Fields whose voxels coincide get offsets from computeOffset() that make the voxels of all their levels coincide.", "quantifier": "every matrix mapping with any number of time samples, every offset, level and size", "why_tests_cant": "All transforms, times, offsets and levels.", "anchors": ["src/MIPUtil.cpp: adjustedMIPFieldMapping, computeOffset", "export/MIPField.h: mappingChanged, loadLevelFromDisk, getVsMIPCoord", "src/FieldMapping.cpp: MatrixFieldMapping::setLocalToWorld"]}
{"id": "C51", "title": "MIP interpolation blends the two levels around the spot size", "statement": "Sampling a MIP field returns the linear interpolation of the base for spot sizes up to its smallest voxel side, that of the last level from the size of its voxels on, and in between changes linearly from each level to the next, every level being read at the same place. The result is continuous in the spot size, never outside the range of the voxels read and, for levels made by averaging filters, never outside the range of the base.", "quantifier": "every list of levels, position, offset and spot size (exact arithmetic)", "why_tests_cant": "All reals.", "anchors": ["export/MIPInterp.h: MIPLinearInterp::sample, interpInfo", "export/MIPField.h: getVsMIPCoord", "export/FieldInterp.h: LinearGenericFieldInterp::sample"]}
{"id": "C52", "title": "Coordinate systems from world bounds keep voxels on a fixed grid", "statement": "The coordinate system made from world bounds takes the unit cube of local space exactly to the bounds. Made from bounds and a voxel size, it takes it to the smallest box around the bounds with corners at whole multiples of the voxel size, so that fields with one voxel per cell have voxels of that size, and the voxels of fields made from different bounds are at the same places. The extents reported with it have one voxel per cell (refuted: exactly when the bounds begin before the world origin and reach it on every axis).", "quantifier": "all bounds with volume and all positive voxel sizes (exact arithmetic)", "why_tests_cant": "All reals.", "anchors": ["export/CoordSys.h: coordinateSystem", "src/FieldMapping.cpp: MatrixFieldMapping::setLocalToWorld, updateTransform"]}
{"id": "C53", "title": "Pre-filtered minimum and maximum queries are conservative", "statement": "After a group has prepared its fields for minimum and maximum queries, the answer for any query box is at most (at least) the value of every voxel of every field in the box, whatever resolution the query chooses, and it is tight in the sense that it is a value that the result was started with or a value of a voxel of one of the fields. This holds when the data window is the extents, starts at the origin, has at least two voxels on each axis, and the resolution multiplier divides it evenly. It fails for multipliers that do not divide the resolution, for windows smaller than the extents, for flat windows and windows away from the origin, and for fields added after the preparation.", "quantifier": "all field values, sizes, mappings (matrix mappings with steady axes), object transforms, thread counts, queries and numbers of fields (exact arithmetic)", "why_tests_cant": "All values, mappings, query boxes and schedules.", "anchors": ["export/MinMaxUtil.h: makeMinMax", "export/FieldSampler.h: getMinMaxPrefilt", "export/FieldGroup.h: makeMinMax, setupMinMax, getMinMax"]}
{"id": "C54", "title": "A MIP field read from a file is the MIP field that was written", "statement": "Writing a MIP field (dense or sparse levels) and reading it back gives a field with the same kind of levels, extents, data window, number of levels and the same extents and window of each level; the data of a level is read only when the level is asked for, and is then exactly what was written, whatever else is in the file and whatever the order in which levels are asked for. Asking for another value type gives a null field. A file whose MIP layer is incomplete, inconsistent or of the wrong types makes the reader throw or return null, never crash; a field that comes back always has at least one level and levels of decreasing size.", "quantifier": "all numbers of levels, sizes, values, names, other contents of the file, thread schedules per level, and (for robustness) all groups with usable names", "why_tests_cant": "All fields, file contents and schedules.", "anchors": ["include/MIPFieldIO.h: writeInternal, readInternal, GenericLazyLoadAction::load", "src/MIPFieldIO.cpp: read, write", "export/MIPField.h: setup, setupLazyLoad, sanityChecks, clear"]}
{"id": "C55", "title": "Iterators keep the blocks of dynamically loaded fields alive and read the file's values", "statement": "Iterators over a dynamically loaded sparse field may be made, advanced, read and destroyed in any order, several at a time, while other code reads the field, pins blocks, changes limits and causes evictions. Each read yields the value stored in the file at the iterator's position, never freed memory; the reference count of each block is at all times the number of live iterators standing in it plus the references others hold, so such a block cannot be evicted, and destroying all iterators gives every reference back. A loop over any part of the window reads each voxel once, in order. This holds if the window starts on the block grid, iterators are not copied and the cache is not flushed while they live; each condition is needed (refuted). A loop may hang if memory is limited, because the past-the-end iterator can hold a block (refuted).", "quantifier": "all fields, windows on the block grid, programs with any number of iterators, memory limits and eviction histories", "why_tests_cant": "All programs and eviction histories.", "anchors": ["export/SparseField.h: SparseField::const_iterator, setupNextBlock, manualActivate, cbegin, cend", "src/SparseFile.cpp: SparseFileManager::deallocateBlocks", "export/SparseFile.h: incBlockRef, decBlockRef, activateBlock"]}
{"id": "C56", "title": "Fields stored in HDF5 groups are read back unchanged", "statement": "Writing a dense, sparse or MAC field into an HDF5 group in which its names are free, and reading it with the same value type, gives the same extents, data window, block order, allocation, empty values and every value, whether or not gzip is available, whatever else is in the group before or added later, and (sparse) however much is read at a time or if blocks are loaded on demand. Nothing else in the group changes. Reading with another value type gives a null field. (False for dense fields of one scalar and blocks of 4 GiB and more with gzip, for 2^31 and more scalars, for storing dynamically loaded fields, for MAC fields in Ogawa files and for files whose sizes disagree.)", "quantifier": "all fields reachable by public operations, sizes, values, component types and counts, memory limits per pass and contents of the group", "why_tests_cant": "All fields, sizes, values and group contents.", "anchors": ["src/DenseFieldIO.cpp: DenseFieldIO::read, write", "include/DenseFieldIO.h: writeInternal, writeData, readData", "src/SparseFieldIO.cpp: SparseFieldIO::read, write, writeInternal, readData", "export/SparseDataReader.h: SparseDataReader::readBlock, readBlockList", "src/MACFieldIO.cpp: MACFieldIO::read, write", "include/MACFieldIO.h: writeInternal, writeData, readData"]}
{"id": "C57", "title": "Proxies describe layers without reading them", "statement": "After any history of writes, asking for the proxies of a partition and layer gives exactly one for each accepted write with those names, with the extents, data window, number of MIP levels, metadata and mapping of the field that was written; asking for all proxies of a first file gives each accepted layer once. In any file whatever, if proxies and layers can both be read there are no proxies or they correspond one to one and agree on names, mapping, metadata and sizes. Listing and opening partitions, layers, metadata and proxies of any file with usable names is never undefined behaviour. A field without storage has the value of the last clear everywhere. (False: proxies of scalar and vector layers are not told apart, a proxy has no value until it is cleared, metadata called mip_levels is replaced, one layer without sizes makes the whole listing throw.)", "quantifier": "all histories of writes with their fields, metadata and mappings, all files with usable names, all partition and layer names, all operation sequences on a field without storage", "why_tests_cant": "All histories and all files, including files made by other programs.", "anchors": ["src/Field3DFile.cpp: Field3DInputFile::readProxyLayer, readProxyScalarLayers, readProxyVectorLayers, readPartitionAndLayerInfo, getPartitionNames, getScalarLayerNames", "export/EmptyField.h: EmptyField"]}
{"id": "C58", "title": "Layers written to an HDF5 file are read back, each once, under their names", "statement": "Any sequence of scalar and vector layer writes to a new HDF5 file returns, and accepts exactly the layers whose names are not empty, \".\" or \"mapping\" (names without NUL and '/', fields and mappings that can be stored, no layer in a partition both as scalar and vector). Opening the file then succeeds whatever the order in which the library lists it; the global metadata is that written; reading by partition and layer, by layer, or everything, gives each accepted layer exactly once with its class, attributes, contents, metadata and a mapping identical to its own; a dense layer is read back as the same field. Listings hold exactly the accepted names. Opening and reading a file of any program is defined if its short attributes are four bytes wide and no link dangles. (False: the same layer as scalar and vector, names with '/', reusing an output or input object for a second file, a write after a mapping failed; rejected layers are listed; wider attributes and dangling links are undefined behaviour or hide partitions.)", "quantifier": "all histories of writes with their names, kinds, mappings and metadata, all orders of listing, and (for safety) all trees of groups", "why_tests_cant": "All histories, link orders and files, including files of other programs.", "anchors": ["export/Field3DFileHDF5.h: writeLayer, createNewPartition, readLayer, readScalarLayers, readVectorLayers", "src/Field3DFileHDF5.cpp: create, writeMapping, writeField, open, readPartitionAndLayerInfo, parsePartitions, parseLayers, getPartitionNames, getScalarLayerNames, intPartitionName"]}
{"id": "C59", "title": "Metadata survives an HDF5 file", "statement": "Metadata left by any history of settings in which each name has one type is written to an HDF5 group and read back the same, whatever the order in which the library lists attributes. Writing succeeds exactly when no name is empty and none has values of two types. Reading attributes that any program wrote, into metadata that holds anything, sets exactly the names of those that are strings or one or three four-byte numbers. (False: names with two types, retrying in the same group, NUL in names and values; wider numbers are undefined behaviour.)", "quantifier": "all histories of settings, names, values, orders of attributes, and all lists of attributes", "why_tests_cant": "All names, values, histories and attribute orders.", "anchors": ["src/Field3DFileHDF5.cpp: writeMetadata, readMetadata, writeGlobalMetadata", "src/Hdf5Util.cpp: writeAttribute, readAttribute"]}
{"id": "C60", "title": "Field mappings survive an HDF5 file", "statement": "A null or matrix mapping, after any calls on it, is written to an HDF5 group and read back with the same samples, whatever the order of the attributes; so is a frustum mapping, with its distribution, when every time at which it was ever given matrices (time 0 included, from its construction) was given since the last reset. Files of older versions give their one matrix at time 0. Every layer of a file comes back with the samples of a mapping that its own was identical to. Reading a mapping, or opening a file, of any attributes that are not wider than the variables they are read into is defined. (False: any other frustum is written from beyond the end of its samples; wider numbers are undefined behaviour; a group without the number of samples is read as a mapping without samples.)", "quantifier": "all histories of calls on mappings, times, matrices and orders of attributes; all histories of writes; (for safety) all lists of attributes and trees of groups", "why_tests_cant": "All histories, samples and attribute orders, including attributes of other programs.", "anchors": ["src/FieldMappingIO.cpp: NullFieldMappingIO, MatrixFieldMappingIO, FrustumFieldMappingIO read and write (hid_t)", "src/Field3DFileHDF5.cpp: writeFieldMapping, readFieldMapping", "src/FieldMapping.cpp: FrustumFieldMapping::setTransforms, reset, clearCurves"]}
{"id": "C61", "title": "Dynamically loaded sparse fields are values", "statement": "Whatever sparse fields are opened from files with dynamic loading, made in memory, copied, assigned to one another, cleared, resized, read, flushed from the cache and destroyed, in any order and under any cache limit, every read of every live field gives the value that field has as a value of its own: a copy holds what its original held, and changing or destroying one field never changes another. Reads end. This holds as long as no operation replaces all voxels of a dynamically loaded field (assignment, clear, resize, change of block order) while one of its blocks is in the cache; if one does, the next flush is undefined behaviour, and otherwise it is not. A write to one voxel of a dynamically loaded field is lost. (False: copying after a block of a dynamically loaded field was made empty keeps the other blocks' values; releasing blocks of a dynamically loaded field is defined.)", "quantifier": "all histories of operations on any number of fields of any types, all contents of fields, memory limits and points of eviction", "why_tests_cant": "All histories, numbers of fields and cache limits.", "anchors": ["export/SparseField.h: SparseField copy constructor, operator=, destructor, copySparseField, addReference, copyBlockStates, setupReferenceBlocks, setupBlocks, clear, setBlockOrder, fastValue, fastLValue, setBlockEmptyValue, releaseBlocks", "export/SparseFile.h: SparseFileManager::activateBlock, removeFieldFromCache, Reference", "src/SparseFile.cpp: deallocateBlock, flushCache"]}
{"id": "C62", "title": "Group memberships survive an HDF5 file", "statement": "After any additions of members to groups of an output file, writing the memberships succeeds, changes nothing else in the file, and reading them gives for each group its members, partition and layer, in the order they were added, without the number the library appends to partition names, whatever the receiving map already held; other names keep their entries. (Names of groups are not empty, hold no NUL and are not that of the library's mark; names of partitions and layers are not empty, hold no NUL, blanks and colons; partition names end in a number or hold no dot; each member ends in a blank.) Reading a file that any program wrote is undefined exactly when some text has an odd number of words. (False: texts without a final blank, dots in partition names without a number, writing twice.)", "quantifier": "all histories of additions, names of groups, partitions and layers, contents of the file and of the receiving map; all lists of texts", "why_tests_cant": "All histories and texts, including texts of other programs.", "anchors": ["src/Field3DFileHDF5.cpp: Field3DOutputFileHDF5::writeGroupMembership, Field3DInputFileHDF5::readGroupMembership", "export/Field3DFile.h: addGroupMembership", "src/Field3DFile.cpp: addGroupMembership", "src/Field3DFileHDF5.cpp: addGroupMembership"]}
{"id": "C63", "title": "MIP fields survive an HDF5 file", "statement": "A MIP field of dense or sparse levels accepted by setup is written to an HDF5 group so that nothing else in the group changes, and reading that group, or any group with the same attributes and level groups, gives a field with the same extents, data window, number of levels and sizes of levels; each level, when it is loaded later by its path in the file, equals the level written. A reader of another value type or number of components gives null. The same holds of a MIP layer in any file written by any calls. On any file, reading returns, throws or gives null without undefined behaviour, provided numbers in attributes are no wider than the reader's variables; what it accepts has levels that shrink. Refuted: a wider attribute is written out of bounds; a MIP field that was only constructed cannot be written without undefined behaviour; a cleared one is written but not readable; a level of one voxel cannot be stored compressed, the writer does not notice, and loading the level throws.", "quantifier": "all MIP fields, levels, histories of operations on them, types, groups of the file, sequences of layer writes and (for safety) all trees of groups", "why_tests_cant": "All levels, sizes and files, including files of other programs.", "anchors": ["include/MIPFieldIO.h: writeInternal, readInternal, LazyLoadAction", "src/MIPFieldIO.cpp: MIPFieldIO::read, write, readInternal, writeInternal", "export/MIPField.h: setupLazyLoad, setup, loadLevelFromDisk", "export/Field3DFileHDF5.h: writeLayer"]}
{"id": "C64", "title": "Proxies of HDF5 files say what layers are without reading them", "statement": "In an HDF5 file written by any calls, asking for the proxies of a partition and layer name and a kind (scalar or vector) gives exactly one proxy for each accepted call of that kind with those names, with the extents, data window and number of MIP levels of the field that was written (dense, sparse, MAC or MIP), its metadata, and a mapping identical to its own; asking for all proxies of a kind gives one for each accepted call whose partition has a name. On any file that opens, if proxies and layers of a name can both be read, there are no proxies or as many as layers in the same order, and each agrees with its layer in names, mapping, metadata, the sizes of the dense or sparse field, and the number of levels of the MIP field. Reading proxies of any file whose numbers are no wider than the reader's variables is free of undefined behaviour. Refuted: one layer without sizes makes the whole query throw; metadata called mip_levels is replaced; a layer in the partition with the empty name has no proxy; the sizes of the proxy of a MIP layer of another program can differ from those of the field that is read; the value of a proxy is not initialised.", "quantifier": "all sequences of layer writes, fields, names, kinds, orders of listing, and (for agreement and safety) all trees of groups", "why_tests_cant": "All files, including those of other programs.", "anchors": ["export/Field3DFileHDF5.h: readProxyLayer, readProxyScalarLayers, readProxyVectorLayers", "src/Field3DFileHDF5.cpp: getIntScalarLayerNames, getIntVectorLayerNames", "export/EmptyField.h: EmptyField"]}
{"id": "C65", "title": "One interface to files of two kinds", "statement": "The layers, metadata and group memberships given to a new output file, in any order, are written to an Ogawa file or an HDF5 file, whichever was chosen, without failing and without changing any other file (no layer of a partition being both scalar and vector); the file then opens, reports its kind, and lists and gives exactly what was written: partitions, layer names, layers with contents and mappings, and, if they were written, the metadata. The same calls give files of both kinds with the same partitions, and the layers an Ogawa file lists are the scalar and vector layers that the HDF5 file lists. An input object answers for an HDF5 file as the HDF5 reader does whatever it was used for before, and for an Ogawa file as the Ogawa reader does if it met only Ogawa files before. Refuted: an input object that opened an HDF5 file, or failed to open a file of neither kind, finds nothing in Ogawa files that it says it opened; metadata of one Ogawa file shows up in the next; an output object that made an HDF5 file makes Ogawa files that refuse every layer; metadata set before the file is made is lost in HDF5 files only; writing metadata without a file is undefined behaviour; scalar layer names differ between the kinds; a closed HDF5 file still lists its partitions; readLayers finds nothing in HDF5 files.", "quantifier": "all sequences of calls, names, fields, metadata, file names and disk contents, both kinds of files, all earlier uses of the input object and orders of listing", "why_tests_cant": "All sequences of calls and earlier uses of the object.", "anchors": ["src/Field3DFile.cpp: Field3DInputFile::open, Field3DOutputFile::create, Field3DFileBase::clear, close, getPartitionNames, getScalarLayerNames, getVectorLayerNames, writeGlobalMetadata, addGroupMembership", "export/Field3DFile.h: readScalarLayers, readVectorLayers, writeScalarLayer, writeVectorLayer, encoding, metadata, closeInternal, cleanup"]}
{"id": "C66", "title": "Threads that share an open archive each read it as if alone", "statement": "Any number of threads may read groups and data from one open Ogawa archive at the same time, with any thread indices and any number of streams, whether or not further streams can be opened: every read returns the bytes of the file at the position asked for, every thread ends with the result it would have had alone, no schedule deadlocks or goes on for ever, and no stream is opened twice. The same holds for archives on streams supplied by the caller, which may begin anywhere in each stream. Exceptions shown: a read past the end of the file ends all reading through that stream; a replaced file is seen by some threads only; zero streams is undefined; streams of different archives with equal headers are accepted.", "quantifier": "all archives, numbers of streams, sets of threads with any (adaptive) sequences of reads, and all interleavings including failures to open the file again", "why_tests_cant": "The number of interleavings is unbounded; tests run few threads and few schedules, and failing to open a file twice is hard to provoke", "anchors": ["src/IStreams.cpp: IStreams::read, init, constructors", "src/IGroup.cpp: IGroup, getGroup, getData", "src/IData.cpp: IData, read", "src/IArchive.cpp: init"]}
{"id": "C67", "title": "Plugins on the search path provide their classes", "statement": "Whatever FIELD3D_DSO_PATH names and whatever the directories hold, using Field3D or calling PluginLoader::loadPlugins() comes to an end; it opens the files called *.so in the order of the path, no two files of one name in the life of a process; it calls the registration function of each opened file that has one exactly once; and the classes those functions register can be created by name afterwards, without losing any class registered before.", "quantifier": "all search paths, directory contents and orders, all behaviours of the files (not loadable, no registration function, any registrations), and all histories of uses of the class factory and explicit loads, with a search path that may change between calls", "why_tests_cant": "Tests run without plugins, or with one in one directory; that the factory and the loader call each other while the factory is being made shows only for whole histories and sets of plugins.", "anchors": ["src/PluginLoader.cpp: PluginLoader::loadPlugins, getDirSos, filter, findRegistrationFunc", "src/ClassFactory.cpp: ClassFactory::ClassFactory, ClassFactory::singleton", "src/InitIO.cpp: initIO"]}
{"id": "C68", "title": "A field group holds exactly the fields it was given", "statement": "After any sequence of calls on a field group (setting the transform, the value remap operator or the bounds optimisation; adding fields with their minima and maxima; loading files; making minima and maxima), sampling visits each field that was given and whose class and type the group supports, as often as it was given and with the transform and operator set at that time, and no other field; size, sizeMIP, fields and the result of load agree with it; a min/max query looks at the given or made minima and maxima when there are any of both, and at the fields otherwise; and no call has undefined behaviour.", "quantifier": "every list of value types, every sequence of calls with every list of fields of every class and type, every file content, and every transform and operator", "why_tests_cant": "Depends on the history of calls on one object, with settings that apply to later calls only; and a test with one history does not see that a flag was never written.", "anchors": ["export/FieldGroup.h: FieldGroup::setup, setupMinMax, load, makeMinMax, size, sizeMIP, fields, setOsToWs, setWsBoundsOptimization, setValueRemapOp, GrabFields", "export/FieldWrapper.h: FieldWrapper, MIPFieldWrapper"]}
{"id": "C69", "title": "The file tools write exactly the fields they should", "statement": "f3dmerge and f3dmakemip, run on any Ogawa files written by the library whose fields have names, with an output file that is not one of the inputs, end with status 0 and leave an output file that shows exactly what they should make of the fields whose names were asked for: each field itself, or its MIP version and if asked for its minimum and maximum under the suffixed names, each as often as it occurs in the inputs, with its partition name, contents and mapping. No other file changes, and with an input that cannot be opened the status is 1 and no readable output is left.", "quantifier": "all sets of input files and contents, all name filters, both tools, all failures to open or create", "why_tests_cant": "All contents of all input files; the same field names may occur in several inputs with different mappings, types and contents.", "anchors": ["apps/f3dmerge/main.cpp: main, writeOutput, writeField", "apps/f3dmakemip/main.cpp: main, makeMIP, writeField"]}
{"id": "C70", "title": "Rounding does not take a linear sample out of the field's range", "statement": "Linear interpolation as the library computes it, in double precision with rounding at every step and a final conversion to the field's type, is defined at every position whose voxel has an index in int. If no voxel is infinite or not a number, then in fields of half or float the sample is finite and never outside the range of the voxels around the position, so equal voxels give back exactly their value; at the centre of a voxel it is exactly the voxel's value, for double too; raising voxels never lowers it; and it differs from the exact sample by no more than rounding of the field's type plus the change of the field over the rounding error of the position. In fields of double the range is kept up to a few units in the last place, and voxels that are not negative give no negative sample.", "quantifier": "all window positions and sizes, all finite voxel values (normal, subnormal, of any magnitude), all positions, the three value types", "why_tests_cant": "Whether some rounding somewhere leaves the range depends on the exact bits of eight values and three coordinates: about 2^450 cases for float.", "anchors": ["export/FieldInterp.h: LinearFieldInterp::sample, LinearGenericFieldInterp::sample"]}
{"id": "C71", "title": "Rounding does not take a MIP level out of the field's range", "statement": "The levels of a MIP field made with the default box filter, computed as the library does (positions and weights in float, sums in float or double, three separable passes each stored in the field's type): a voxel of a level is a finite number within the exact range of the voxels beneath it, and of the voxels of the base that it covers, so all levels of a constant field hold exactly its value; it is zero where nothing lies beneath it; raising voxels never lowers a level; and level n differs from the level in exact arithmetic by at most n times a small multiple of the type's rounding. In half fields this needs only finite voxels, in float and double fields voxels below half of the largest number.", "quantifier": "all resolutions up to 2^24 per axis, all voxel values in range (normal and subnormal), all levels, paddings of nought or one, the three value types", "why_tests_cant": "Rounding depends on the exact bits of every voxel; positions near 2^24 cannot be tried.", "anchors": ["export/MIPUtil.h: MIPSeparableThreadOp, mipSeparable, mipResample, makeMIP, ComputationType", "export/Resample.h: BoxFilter"]}
{"id": "C72", "title": "Animated values survive rounding", "statement": "After any sequence of addSample calls with finite times, a curve as computed (float times, float or double components) has strictly increasing times and holds for each time the value last given to it, -0 and +0 being one time. linear(t) returns the first sample's value before it and the last one's from it on, exactly the stored value at every sample time, and between two samples a finite number within 2^-22 of the step, plus 2^-22 of the larger value, of the straight line; a component all samples agree on moves by at most 2^-22 of itself. Times and float components must be below 2^127, double components below 2^1023.", "quantifier": "every sequence of addSample calls in any order, every lookup time, every component of scalars, vectors and matrices, normal and subnormal", "why_tests_cant": "Rounding depends on the exact bits of times and values; insertion orders and lookup times are unbounded.", "anchors": ["export/Curve.h: Curve::addSample, Curve::linear, Curve::lerp", "export/FieldMapping.h: MatrixCurve, FloatCurve"]}
{"id": "C73", "title": "Damaged files are read without harm", "statement": "Whatever bytes a file holds, opening it as an Ogawa archive of version 1 and then making any calls of the reader (getting groups and data, light or not, asking for kinds, counts and sizes, reading with any offset and a large enough buffer) either gives an answer or throws, and never stores outside a buffer. What read stores are bytes of the file from the place asked for on, no more than asked for, and none unless the size recorded in the file covers them. Once the stream has failed nothing more is stored, and all that is found is empty. The kinds of children that a group tells are those it gives. A complete archive is read in full, without failing or throwing. Strings and values read by the layer above are bytes of the file too.", "quantifier": "all byte sequences as files, all sequences of calls with all indices, sizes and offsets, all memory limits, all archives that were written in full", "why_tests_cant": "Damage can be anywhere; positions, counts and sizes are 64 bit numbers taken from the file, and failures are remembered by the stream across calls.", "anchors": ["src/IStreams.cpp: IStreams::read", "src/IGroup.cpp: IGroup, getGroup, getData, isChildGroup, isChildData, isEmptyChildGroup, isEmptyChildData", "src/IData.cpp: IData, read, getSize", "src/IArchive.cpp: IArchive", "src/OgUtil.cpp: readString", "include/OgUtil.h: readData"]}
{"id": "C74", "title": "Archives of any contents are listed and read, or refused", "statement": "A complete Ogawa archive, whoever wrote it, opens as a Field3D file unless its version is refused. If every entry that begins with a name has a kind, every attribute a type and a value and every data set a type, the partitions listed are the groups of the root, their layers are the groups found in them, and opening is always defined. Reading a dense layer is undefined exactly when the size of the extents is not an int, the window has more voxels than an int can count or the data is longer than the voxels. Reading a MIP layer is undefined exactly when the size of the extents of a level is not an int; it is read exactly when all its levels are recorded, each smaller than the one before, and loading a level gives what is stored in the group of that level. Reading any layer is defined, whatever the reading threads do, if it names its class and its recorded numbers of blocks, flags, values and elements agree with its window. What is not so is harmful or lost: an entry with only a name, a layer without a class, too much data, too many blocks or flags, missing elements; an unnamed entry hides the later ones from reading but not from listing.", "quantifier": "all trees of groups and data as archives, all names, all value types of fixed size, all schedules of the reading threads", "why_tests_cant": "The archive is untrusted input of unbounded size and shape; harm depends on combinations of recorded numbers that no writer of this library produces.", "anchors": ["src/Field3DFile.cpp: Field3DInputFile::open, readPartitionAndLayerInfo, readLayer, isSupportedFileVersion", "src/OgIGroup.cpp: findGroup, groupNames", "include/OgIAttribute.h: OgIAttribute::value", "src/DenseFieldIO.cpp: DenseFieldIO::read", "src/SparseFieldIO.cpp: SparseFieldIO::read", "include/OgSparseDataReader.h: readBlock", "src/MIPFieldIO.cpp: MIPFieldIO::read", "include/MIPFieldIO.h: readInternal, GenericLazyLoadAction::load", "export/MIPField.h: setupLazyLoad, sanityChecks, loadLevelFromDisk", "src/FieldMapping.cpp: FieldMapping::setExtents"]}
{"id": "C75", "title": "Byte counts read as what they are", "statement": "bytesToString gives a count of less than 1024 bytes in size as the exact decimal number of bytes. A larger one is given, with its sign, as a decimal number with three digits in KB, MB or GB by its size; the number differs from the true one by at most half a thousandth of the unit plus the 2^24th part of the count (the count is rounded to float), and by at most half a thousandth up to 2^24 bytes. In one unit a larger count never reads as a smaller number, and a text reads one way only.", "quantifier": "every 64-bit count but the least one", "why_tests_cant": "There are 2^64 counts; the result depends on rounding twice (to float, then to three digits), where samples only show the easy cases.", "anchors": ["src/Log.cpp: bytesToString", "export/Log.h: bytesToString"]}
{"id": "C76", "title": "Samples of MIP fields survive rounding", "statement": "A sample of a MIP field as computed (float spot sizes and weights, values of 16, 32 or 64 bits) is a finite number for every spot size, even one that is not a number, and lies in the range of the voxels; for half values exactly, otherwise up to 2^-22 of the bound outside. Voxels that are not negative give no negative sample, and raising voxels never lowers one. A spot up to the size of a voxel samples the first level at the given position, one larger than the voxels of the last level samples that level, one of exactly the voxel size of a level gives that level's sample exactly, and any other one gives a value within rounding of the straight line between the samples of the two levels it lies between. The position in a level is within rounding to float of the one in real numbers.", "quantifier": "every field of up to 31 levels with non-empty windows and finite voxels (float below 2^127, double up to 2^1019), every position and offset up to 2^30, every spot size and every positive voxel size whose largest multiple is below 2^127", "why_tests_cant": "Rounding depends on the exact bits of voxel sizes, spot sizes, positions and values, in several steps of different precision.", "anchors": ["export/MIPInterp.h: MIPLinearInterp::MIPLinearInterp, sample, interpInfo", "export/MIPField.h: getVsMIPCoord", "export/FieldInterp.h: LinearFieldInterp::sample"]}
{"id": "C77", "title": "Rounding does not spoil cubic samples", "statement": "Cubic interpolation of a half, float or double field (scalar or vector), computed in floating point as the code does it, is defined at every position whose coordinates have an index in int (and takes a coordinate that is not a number or minus infinity as 1/2); it gives back the common value of equal voxels exactly, gives back a voxel's value exactly at its centre when no voxel exceeds a 64th of the largest number of the type, is then a finite number at most five times the largest voxel, and stays within 700 roundings of the exact cubic sample.", "quantifier": "every voxel type, voxel values, data window, and double coordinates including infinities and NaN", "why_tests_cant": "rounding errors depend on all 64 voxels and on the position; the comparison of a rounded difference with zero chooses between two different curves, so no sampled test bounds the error", "anchors": ["export/FieldInterp.h: CubicFieldInterp::sample, CubicGenericFieldInterp::sample, monotonicCubicInterpolant"]}
{"id": "C78", "title": "Minimum and maximum MIP levels bound the field to the last bit", "statement": "Each voxel of a level of a MIP field made with the minimum (maximum) filter, computed in floating point as the code does it, is not NaN and is at most (at least) every voxel of the base that it covers and that is not NaN, infinities included; if every voxel is below the largest float (above its negative), it is exactly the least (greatest) of them.", "quantifier": "every voxel type, all voxel values including infinities and NaN, every resolution up to the limits of int and float coordinates, every level", "why_tests_cant": "a bound that one voxel in one level breaks makes renderers skip data silently; values near the sentinel, infinities, NaN and large coordinates are not sampled by tests", "anchors": ["export/MIPUtil.h: MIPSeparableThreadOp::operator(), makeMIP", "export/Resample.h: MinFilter, MaxFilter", "export/MinMaxUtil.h: makeMinMax"]}
{"id": "C79", "title": "Resampling by whole factors finds the right voxels despite rounding", "statement": "When a field is resampled so that along each axis one size is a multiple of the other, and no size is above 2^19: with the minimum (maximum) filter each new voxel, computed in floating point as the code does it, is not NaN, bounds every old voxel it overlaps, infinities included, and is one of them if they differ from the filter's initial value; with the box filter, at factors of at least one, each new voxel is the old voxel it lies in, unchanged, if the field is finite.", "quantifier": "every voxel type, all voxel values, all old and new sizes up to 2^19 of which one is a multiple of the other, separately along each axis, all voxels", "why_tests_cant": "voxels are chosen by comparing rounded distances with one half; whether a voxel on the border of a block is taken depends on the rounding of two reciprocals, a product and a quotient for each size and position", "anchors": ["export/Resample.h: separable, separableResample, BoxFilter, MinFilter, MaxFilter", "src/Resample.cpp: srcSupportBBox, getDist"]}
{"id": "C80", "title": "Sampling many points at once is sampling each of them", "statement": "Sampling a group of fields at many points at once adds to the entry of each point exactly what sampling the group at that point alone adds, in the same order and so bit for bit, counts the same hits, reads and writes nothing outside arrays of the stated sizes, and leaves the rest of the arrays alone; for ordinary fields always, for MIP fields (each point with its own spot size) if the field has no remap operator or the bounds optimisation was decided for it and its bounds are faithful. Otherwise it fails: a MIP field does not decide on the optimisation when it is constructed, so adding one to a transformed group, or sampling one with a remap operator at many points, has no defined outcome.", "quantifier": "every list of fields with any transforms, mappings, bounds, interpolators, remap operators and flags, every number of points and components, every arithmetic, every initial contents of the arrays", "why_tests_cant": "the loops are exchanged between the two functions and each has its own branches by transform, remap operator and optimisation; an index slip shows only with several fields, several components and points some of which miss, and an indeterminate flag is mostly false by luck", "anchors": ["export/FieldSampler.h: FieldSampler::sample, sampleMultiple, sampleMIP, sampleMIPMultiple", "export/FieldWrapper.h: FieldWrapper, MIPFieldWrapper, setOsToWs, setWsBoundsOptimization", "export/FieldGroup.h: FieldGroup::GrabFields"]}
{"id": "C81", "title": "The sparse interpolator gives the bits of the generic one", "statement": "As computed, in floating point: sampling a sparse field of half or float values, all finite, through its own interpolator gives exactly the bits, signs of noughts included, that the generic interpolator gives, at every position and whatever blocks are allocated. Of any values of any type this holds where the voxels around the position are in allocated blocks. Of finite double values the two differ by no more than a few units in the last place; in an unallocated block they do differ. Releasing blocks of equal voxels, by the equality of floating point, changes no voxel except the sign of noughts.", "quantifier": "every sparse field reached by any history of operations, every value type, every contents including infinities and values that are not numbers, every position", "why_tests_cant": "the fast path reads through pointers into one block and returns the value of an unallocated block without computing; agreement to the last bit depends on the signs and rounding of weights and has to hold at every position and alignment", "anchors": ["export/SparseField.h: LinearSparseFieldInterp::sample, CheckAllEqual::check, SparseField::releaseBlocks", "export/FieldInterp.h: LinearGenericFieldInterp::sample"]}
{"id": "C82", "title": "Ray and box intersection survives rounding", "statement": "For a ray and an axis-aligned box with ordinary double coordinates (finite, at most 2^900, the box not inside out, no direction component that is tiny without being zero, and no ray lying in the plane of a face), the interval of ray parameters reported differs from the exact one by a relative error of at most 2^-51 at either end: every parameter at which the ray is in the box is within that error of the interval, every parameter inside the interval by more than that error is in the box, and a box the ray crosses ahead of its origin over more than that error is never missed. The ends reported are finite and in order, and the second is not negative.", "quantifier": "every ray, every box, with coordinates of any size up to 2^900 and either sign of zero", "why_tests_cant": "the differences and quotients round, underflow and divide by zero; the error has to be bounded for all coordinates, not for a sample", "anchors": ["export/FieldGroup.h: detail::intersect, GetIntersections::operator()"]}
{"id": "C83", "title": "Local and voxel coordinates survive rounding", "statement": "For every extents that can be set on a field, converting between voxel and local coordinates in double arithmetic: maps points of the extents to local coordinates between 0 and 1 and points of the unit cube to points of the extents, with no exception at the borders; is exact at the corners; never swaps the order of two points; and is within 2^-51 of the exact conversion, relative to one or to the coordinates of the extents. Converting and converting back moves a point by at most 2^-50 of the coordinates of the extents, so a point further than 2^-17 of a voxel from a face of its voxel, such as the centre of a voxel, is found in the same voxel again.", "quantifier": "every extents (32-bit corners whose size fits an int), every voxel, every finite double coordinate in range", "why_tests_cant": "a quotient, a product and two sums round; which voxel floor() finds afterwards depends on the last bit, for billions of possible extents", "anchors": ["src/FieldMapping.cpp: FieldMapping::setExtents, FieldMapping::localToVoxel, FieldMapping::voxelToLocal", "export/FieldMapping.h: NullFieldMapping::worldToVoxel, NullFieldMapping::voxelToWorld"]}
{"id": "C84", "title": "Matrix mappings survive rounding", "statement": "A position carried through a matrix mapping without perspective (world to voxel, voxel to world, world to local, local to world), in double arithmetic, is finite and each coordinate differs from the exact image by at most 2^-50 of the sum of the magnitudes of the four terms added, plus 2^-1070. Going to world space and back lands within the correspondingly carried error of where the two stored matrices take the point in exact arithmetic. The identity matrix returns the position exactly. A coordinate of the image never falls when every coordinate of the position moves the way in which the exact image does not fall.", "quantifier": "every position and every matrix whose last column is 0, 0, 0, 1, with finite entries of at most 2^400", "why_tests_cant": "seven roundings per coordinate and a division by a computed weight; the bound has to hold for all positions and matrices, cancellation included", "anchors": ["export/FieldMapping.h: MatrixFieldMapping::worldToVoxel, MatrixFieldMapping::voxelToWorld, MatrixFieldMapping::worldToLocal, MatrixFieldMapping::localToWorld"]}
{"id": "C85", "title": "Sampled velocities stay within the stored face values despite rounding", "statement": "When a velocity stored on faces is sampled with linear interpolation at a position given in doubles, each component of the vector lies between the smallest and largest value of that component on the faces around the position, for fields of half and float; asked for one component alone the answer is a double that may leave that range only by a few units in the last place. At the centre of a face both give the face's value exactly, raising face values never lowers a sample, and every position with an index in int has a sample.", "quantifier": "all face values, windows, components and positions, with IEEE rounding to nearest", "why_tests_cant": "The rounding of weights and sums depends on every bit of the position and of eight stored values, and the two functions round differently; a test can only try some of them.", "anchors": ["export/FieldInterp.h: LinearMACFieldInterp::sample (both overloads)", "export/MACField.h: u, v, w"]}
{"id": "C86", "title": "Converting velocities between cells and faces survives rounding", "statement": "The velocity read at a cell of a field stored on faces lies, component by component, between the values on the cell's two faces, equals them when they are equal, and never falls when a face is raised. A face made from cells lies between the cells of the window beside it and is the one cell's value at the border. From cells to faces and back a component stays within the cell and its two neighbours, and is unchanged where these agree.", "quantifier": "all face and cell values of which two can be added, all windows, components and cells, for half, float and double with IEEE rounding", "why_tests_cant": "Each value is rounded up to three times, in different types; that no rounding leaves the interval holds for all pairs of numbers or not at all.", "anchors": ["export/MACField.h: uCenter, vCenter, wCenter, value", "export/MACFieldUtil.h: convertMACToCellCentered, convertCellCenteredToMAC"]}
{"id": "C87", "title": "Linear interpolation of vectors loses no more than the rounding of its operations", "statement": "Linear interpolation in a field of vectors, as it is computed, rounds every product and every sum to the component type of the field, not to double as for scalars. A sample is still defined wherever the position has an index, is the voxel at its centre to the last bit, never falls when voxels rise, never crosses zero when the voxels around do not, leaves the range of the voxels around by no more than a few units in the last place of the component type, and is as close to the exact interpolant. Vectors of double are interpolated bit for bit as scalars of double are. A constant field of vectors of float may be sampled as another value, which a field of scalars of float never is; and a field of vectors all equal to the largest float may be sampled as infinite.", "quantifier": "every field of half, float or double vectors whose components are finite and within a sixteenth of the range of the type, every window and every position", "why_tests_cant": "the last bits depend on every combination of eight values and six weights", "anchors": ["export/FieldInterp.h: LinearFieldInterp::sample, operator * (S, FIELD3D_VEC3_T<T>), LinearGenericFieldInterp::sample"]}
{"id": "C88", "title": "A MIP level of vectors stays within the vectors beneath it, unless half overflows", "statement": "A component of a voxel in the next coarser level of a MIP field of vectors, with the default filter and as it is computed, lies to the last bit within the range of that component in the voxels beneath it, is their value when they are equal, is exactly the mean of two neighbours whose sum and mean are representable, and is zero where there are none, if any two components can be added without overflow in their own type. Vectors of float and double are filtered bit for bit as scalars are. Vectors of half are summed in half, not in float as scalars of half are: a field of vectors of half all equal to 40000 has an infinite coarser level, while the field of scalars keeps 40000.", "quantifier": "every field of half, float or double vectors whose components are finite and below half the range of the type, every resolution, offset and voxel of the level", "why_tests_cant": "each voxel is the result of three passes, each of which rounds in the component type; which sums overflow depends on the values", "anchors": ["export/MIPUtil.h: detail::ComputationType, MIPSeparableThreadOp, mipSeparable, mipResample"]}
