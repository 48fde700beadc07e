{"id": "C01", "title": "Random access agrees with decoding", "statement": "For every well-formed array, scalar_at(i) returns exactly the value (or null) of the i-th row, the one the i-th element of the decoded (canonical) array has wherever decoding is faithful (C06), and returns an error for every i >= len; this holds whatever encodings are nested inside one another, except that dictionary, sparse and run-end arrays with nested (struct, extension) values are excluded, where the code is wrong (refuted theorem).", "quantifier": "all encoding trees (any nesting depth, any lengths, any child encodings), all indices", "why_tests_cant": "The encodings compose: a test can only pick a few nestings, lengths and offsets, whereas the claim is an induction over all encoding trees.", "anchors": ["vortex-array/src/compute/unary/scalar_at.rs: scalar_at", "encodings/*/src/**/compute*.rs: ScalarAtFn impls"]}
{"id": "C02", "title": "Slicing commutes with decoding", "statement": "For every well-formed array a and 0 <= i <= j <= len(a), whenever slice(a,i,j) succeeds its result has length j-i, the dtype of a, and decodes to elements i..j of the decoded a; it succeeds whenever i < j, and also for i = j unless a run-end array or a chunked array without chunks occurs in the tree (there the code fails: see the refuted theorems); slice with j > len or i > j returns an error. The sliced array is again well-formed, so the claim composes for slices of slices.", "quantifier": "all encoding trees, all slice bounds, including slices of slices", "why_tests_cant": "Slices keep hidden offsets (bit offsets, run offsets, 1024-block offsets); errors only show for particular offset/length residues and repeated slicing.", "anchors": ["vortex-array/src/compute/slice.rs: slice", "encodings/*/src/**: SliceFn impls"]}
{"id": "C03", "title": "Take commutes with decoding", "statement": "For every well-formed array and every list of in-range indices (any order, with repeats), whenever take(a, idx) succeeds its result has length len(idx), the dtype of a up to nullability, its k-th element equals row idx[k] of a, and it is again well-formed; it succeeds on the stated classes. Excluded, with refuted theorems: patched bit-packed arrays taken per block, chunked arrays indexed by a type too narrow for the chunk offsets or with out-of-range indices, var-binary arrays whose offsets type is too narrow for the result, and string arrays (whose nullability can change); plus the arrays whose decoding is unfaithful (C06).", "quantifier": "all encoding trees, all index lists", "why_tests_cant": "The number of index vectors is unbounded and several encodings change algorithm with index density or order.", "anchors": ["vortex-array/src/compute/take.rs: take", "encodings/*/src/**: TakeFn impls"]}
{"id": "C04", "title": "Filter commutes with decoding", "statement": "For every well-formed array and every boolean mask of the same length whose bits start at bit 0 of its buffer, whenever filter(a, mask) succeeds it decodes to the subsequence of rows at the true positions, in order, with the dtype up to nullability, and is again well-formed; it succeeds unless a non-temporal extension or an array whose take can fail (C03) occurs in the tree. A mask array sliced at an unaligned bit selects wrong rows, and extension arrays cannot be filtered (refuted theorems).", "quantifier": "all encoding trees, all masks (including sliced mask arrays and empty/all-true masks)", "why_tests_cant": "Filtering switches between slice and index strategies by selectivity and by the bit alignment of the mask.", "anchors": ["vortex-array/src/compute/filter.rs: filter", "vortex-array/src/array/bool/mod.rs: maybe_null_indices_iter, maybe_null_slices_iter"]}
{"id": "C05", "title": "Any pipeline of slice/take/filter equals the same pipeline on plain lists", "statement": "Applying any finite sequence of valid slice, take and filter operations to any well-formed array, when every step succeeds, gives an array with the same rows as applying the sequence to the decoded array; on the classes where the operations are total every step does succeed.", "quantifier": "all operation histories of any length over all encoding trees", "why_tests_cant": "Histories are unbounded; each operation must preserve the representation invariant the next one needs.", "anchors": ["vortex-array/src/compute/mod.rs"]}
{"id": "C06", "title": "Canonicalisation is lossless", "statement": "into_canonical of any well-formed array yields, when it succeeds, an uncompressed array of the same length and (up to nullability of strings) dtype whose i-th value and nullness equal the array's i-th row; reported logical validity is the nullness of the rows; canonicalising a second time changes nothing. Excluded, with refuted theorems: sparse arrays of booleans or whose patches contain nulls (wrong rows) and binary var-binary arrays (decoded as UTF-8 strings, other values lost). Constants of null, struct or extension type cannot be decoded (an error).", "quantifier": "all encoding trees", "why_tests_cant": "Must hold for any nesting, not only the pairs that tests build.", "anchors": ["vortex-array/src/canonical.rs: IntoCanonical", "encodings/*/src/**: IntoCanonical impls"]}
{"id": "C07", "title": "search_sorted returns the insertion point", "statement": "On a sorted array, search_sorted(v, Left) returns the number of elements < v and search_sorted(v, Right) the number of elements <= v, and Found is returned exactly when v occurs.", "quantifier": "all sorted arrays of any length, all search values, both sides", "why_tests_cant": "Off-by-one errors of binary search appear only for particular lengths and duplicates.", "anchors": ["vortex-array/src/compute/search_sorted.rs: search_sorted, search_sorted_side_idx, search_sorted_side"]}
{"id": "C08", "title": "search_sorted on an encoded array agrees with search_sorted on the decoded array", "statement": "search_sorted on an encoded sorted integer array (nulls last) succeeds and returns the result that search_sorted returns on its decoded form, for both sides and every searched value, in every nesting of constant, bit-packed (with or without patches), frame-of-reference, zigzag, dictionary, run-end, chunked and plain encodings. Exceptions, each with a counterexample theorem: sparse arrays (the fill value is never searched), signed frame-of-reference arrays with a shift, an empty constant array searched for its own value (position right, found flag wrong), and the batched search over u64 values on bit-packed arrays (values truncated to the stored width, patches ignored), which makes take on a run-end array with patched ends return a wrong row.", "quantifier": "all encoded sorted arrays outside the listed exceptions, all search values, both sides", "why_tests_cant": "Depends on arithmetic relations between search value, reference, shift, bit width and patches.", "anchors": ["encodings/fastlanes/src/for/compute.rs: SearchSortedFn", "encodings/fastlanes/src/bitpacking/compute/search_sorted.rs", "vortex-array/src/array/sparse/compute/mod.rs", "vortex-array/src/array/constant/compute/search_sorted.rs"]}
{"id": "C09", "title": "Frame-of-reference encoding round-trips", "statement": "for_compress followed by decompress returns the original integers, for every integer type, every range (including ranges exceeding the signed maximum) and every common trailing-zero shift, with nulls unchanged; the encoded array is well-formed. Arrays without any non-null value are rejected with an error.", "quantifier": "all integer arrays of all eight integer types", "why_tests_cant": "Wrapping subtraction, arithmetic vs logical shifts: failures only near type extremes.", "anchors": ["encodings/fastlanes/src/for/compress.rs: for_compress, decompress"]}
{"id": "C10", "title": "ZigZag encoding round-trips", "statement": "zigzag_encode followed by decode is the identity on every signed integer of every width, and the encoding never loses information at the extreme values.", "quantifier": "all signed integer arrays", "why_tests_cant": "The domain of 64-bit integers cannot be enumerated.", "anchors": ["encodings/zigzag/src/compress.rs: zigzag_encode, zigzag_decode"]}
{"id": "C11", "title": "Bit-packing with patches round-trips", "statement": "Bit-packing any non-empty unsigned array at any bit width below the type's width, with values too wide stored as patches, then unpacking returns the original values and nulls (also after slicing the packed form); the patchless width chosen from the statistics needs no patches; other widths, signed types and empty arrays are rejected with an error.", "quantifier": "all unsigned integer arrays, all bit widths not larger than the type, any number of exceptions, all lengths incl. partial 1024 blocks", "why_tests_cant": "All lengths x widths x exception positions.", "anchors": ["encodings/fastlanes/src/bitpacking/compress.rs: bitpack_encode, bitpack, bitpack_patches, unpack"]}
{"id": "C12", "title": "Bit-packed arrays support access after slicing", "statement": "scalar_at and slice on a (possibly sliced, possibly patched) bit-packed array return the same values as unpacking first, and so does take unless the array has patches and at least 64 indices amounting to at most an eighth of the array are taken (there the code is wrong: refuted theorem).", "quantifier": "all bit-packed arrays, slices, index lists", "why_tests_cant": "Interaction of in-block offset, block boundaries and patch positions.", "anchors": ["encodings/fastlanes/src/bitpacking/compute/take.rs: take_primitive", "encodings/fastlanes/src/bitpacking/compute/slice.rs", "encodings/fastlanes/src/bitpacking/compute/scalar_at.rs"]}
{"id": "C13", "title": "Delta encoding round-trips", "statement": "Delta-compressing any unsigned integer array (any length, nullable or not) as the compressor does and decompressing returns the original values and nulls; slicing the delta form (also repeatedly) and decompressing returns that slice, and scalar_at agrees with decoding, when the validity is not a bitmap. Parts are accepted as a Delta array exactly when offset, lengths and validity fit together. Signed arrays panic. Known defects (refuted theorems): DeltaArray::try_from_primitive_array forgets nulls; decoding a slice of (or one row of) an array with a validity bitmap panics.", "quantifier": "all integer arrays, all lengths incl. non-multiples of 1024, all slices", "why_tests_cant": "Lane-transposed prefix sums with wrapping arithmetic and a scalar remainder path.", "anchors": ["encodings/fastlanes/src/delta/compress.rs: delta_compress, delta_decompress", "encodings/fastlanes/src/delta/compute.rs"]}
{"id": "C14", "title": "Run-end encoding round-trips and is minimal", "statement": "Run-end encoding a primitive array (integers, or floats without negative zero) then decoding returns the original values and nulls; the stored run ends are strictly increasing, end with the length, and adjacent runs hold different values. A float array in which 0.0 and -0.0 are adjacent does NOT round-trip (the encoder merges them).", "quantifier": "all arrays", "why_tests_cant": "All run structures.", "anchors": ["encodings/runend/src/compress.rs: runend_encode, runend_decode"]}
{"id": "C15", "title": "Run-end-encoded booleans behave like plain booleans", "statement": "Run-end boolean encoding round-trips, nullable or not; scalar_at agrees with decoding on every well-formed array; take agrees when the array has no nulls; slice agrees on an unsliced array whose validity is not a bitmap. Outside those provisos the code is wrong: take forgets nulls, a slice of a slice forgets the first offset, slicing a nullable array slices the bitmap by run numbers.", "quantifier": "all boolean arrays, nullable or not, all histories of slices and takes", "why_tests_cant": "Offsets accumulate over repeated slices.", "anchors": ["encodings/runend-bool/src/compress.rs", "encodings/runend-bool/src/compute.rs", "encodings/runend-bool/src/array.rs"]}
{"id": "C16", "title": "Dictionary encoding round-trips, and nullness survives", "statement": "dict-encoding any primitive array or any string/binary array (nullable or not, up to 2^32-1 bytes of strings) and decoding returns the original rows and nulls; dictionary entries are distinct; the validity reported for such a dictionary array equals the nullness of its rows. A hand-built dictionary array whose code 0 is not the null entry has its validity misreported (refuted theorem).", "quantifier": "all arrays, all dictionaries (including sliced/filtered dictionary arrays)", "why_tests_cant": "Hash/equality interaction and null code convention across all value sequences.", "anchors": ["encodings/dict/src/compress.rs: dict_encode_typed_primitive, dict_encode_varbin", "encodings/dict/src/array.rs", "encodings/dict/src/compute.rs"]}
{"id": "C17", "title": "Sparse arrays decode to fill plus patches", "statement": "Reading a sparse array (also after slicing) gives fill_value everywhere except at the patch positions, where it gives the patch value (including null patches); decoding gives the same rows, and the reported validity is their nullness, for integer/float arrays that are non-nullable or have a null fill and no null patches. Known defects (refuted theorems): decoding boolean sparse arrays, null patches, or a non-null fill of a nullable type.", "quantifier": "all fill values, dtypes, patch position lists, slices of them", "why_tests_cant": "All combinations of fill/nullability/dtype.", "anchors": ["vortex-array/src/array/sparse/flatten.rs", "vortex-array/src/array/sparse/mod.rs"]}
{"id": "C18", "title": "Chunked arrays behave like the concatenation of their chunks", "statement": "Every operation on a chunked array (scalar_at, slice, take, filter, decoding), when it succeeds, returns the same rows as on the concatenation, whatever the chunk boundaries, including empty chunks; scalar_at at position o of chunk k is scalar_at(o) of that chunk. Rechunking keeps the rows and their order: every new chunk is one larger old chunk as it was or a run of consecutive old chunks within the targets put together, no run stops while the next chunk fits, and it never fails on decodable chunks. Known defects (refuted theorems): take with an index type too narrow for the chunk offsets, an out-of-range index in take, slicing an array without chunks.", "quantifier": "all partitions of all arrays into chunks, all operations", "why_tests_cant": "Boundaries and empty chunks interact with binary search over chunk ends.", "anchors": ["vortex-array/src/array/chunked/mod.rs: find_chunk_idx", "vortex-array/src/array/chunked/compute/*.rs", "vortex-array/src/array/chunked/mod.rs: rechunk"]}
{"id": "C19", "title": "Validity algebra", "statement": "Validity slice/take/filter/and agree pointwise with the boolean semantics of nullness, and the non-null count derived from it equals the number of valid positions.", "quantifier": "all validities, all lengths", "why_tests_cant": "Four representations times operations.", "anchors": ["vortex-array/src/validity.rs"]}
{"id": "C20", "title": "Variable-length binary arrays keep every byte string", "statement": "Building a variable-length binary array from strings and nulls gives exactly those rows (or panics when the bytes do not fit the offset type, or a null is given for a non-nullable type); slicing, filtering and reading it preserve each selected string byte-for-byte and each null; so does take when the taken strings fit the offset type, otherwise it panics (refuted theorem).", "quantifier": "all sequences of byte strings and nulls, all operations", "why_tests_cant": "Offsets arithmetic over all string lengths including empty strings.", "anchors": ["vortex-array/src/array/varbin/*.rs: VarBinBuilder, slice, take, filter"]}
{"id": "C21", "title": "View-based string arrays keep every byte string", "statement": "A string view array built from byte strings returns every string and null unchanged, whether inlined (<= 12 bytes) or referenced and however the builder splits its blocks, also after slicing, taking, filtering and decoding (take may change the nullability of the type: refuted theorem); building a non-nullable array with a null panics.", "quantifier": "all byte strings of any length", "why_tests_cant": "Boundary at 12 bytes and buffer indices.", "anchors": ["vortex-array/src/array/varbinview/*.rs"]}
{"id": "C22", "title": "FSST string compression round-trips", "statement": "Compressing a Utf8 array (VarBin or VarBinView; at most 2^31-1 bytes of strings and of codes) with FSST, whatever the symbols (up to 255 of up to 8 bytes) and whichever way the compressor spells strings with them, gives an array that decodes to the same strings and nulls; scalar_at, slice, take and filter on the compressed form give the rows that the same operation gives on the strings, and comparisons with a string constant (equality on the codes alone) agree with comparing the strings. Other encodings are rejected. Exceptions: an array of more than 2^31-1 bytes of strings panics when decoded; Binary arrays decode to Utf8 with every non-UTF-8 string replaced by null; equality with a null constant returns that constant instead of nulls.", "quantifier": "all string arrays, all symbol tables, all compressors whose codes spell their input, all ranges, index lists and masks", "why_tests_cant": "Unbounded inputs; per-string lengths are kept separately from codes.", "anchors": ["encodings/fsst/src/compress.rs", "encodings/fsst/src/canonical.rs", "encodings/fsst/src/compute.rs"]}
{"id": "C23", "title": "ALP float compression is lossless", "statement": "ALP-encoding a primitive f32 or f64 array, with chosen exponents or with those found from a sample, and decoding it returns the same floats bit by bit, NaN payloads, infinities and subnormals included, except that -0.0 becomes +0.0; nulls and nullability are kept. scalar_at, slice, take and filter on the compressed form give the rows that the same operation gives on the decoded array. Other types and encodings are rejected; exponents outside the tables panic. An array constructed with patches that are not sparse cannot be decoded.", "quantifier": "all f32/f64 bit patterns, all lengths, validities and exponents, all ranges, index lists and masks", "why_tests_cant": "2^64 bit patterns.", "anchors": ["encodings/alp/src/alp/mod.rs", "encodings/alp/src/alp/compress.rs"]}
{"id": "C24", "title": "ALP-RD float compression is lossless", "statement": "For any encoder trained on a non-empty sample of f32 (f64) values - any of the 16 cut points, any dictionary of at most 8 left parts in any order - ALP-RD-encoding any f32 (f64) array and decoding it returns the same rows bit by bit: NaN payloads, infinities, subnormals, both zeros and nulls included. scalar_at, slice, take and filter on the compressed form give the rows that the same operation gives on the decoded array. Decoding always gives a nullable array, also of a non-nullable one. Training on no values and encoding other types panic; an encoder trained on f32 values silently drops bits of f64 values.", "quantifier": "all f32/f64 bit patterns, lengths and validities, all cut points, samples and dictionary orders, all ranges, index lists and masks", "why_tests_cant": "2^64 patterns times dictionaries.", "anchors": ["encodings/alp/src/alp_rd/mod.rs: RDEncoder, alp_rd_decode"]}
{"id": "C25", "title": "Comparisons on compressed data agree with comparisons on decoded data", "statement": "compare(a, b, op) for two arrays of the same non-struct type (nullability aside) and length, in any encodings (primitive, boolean, string, constant, sparse, chunked, dictionary, run-end, frame-of-reference, zigzag, bit-packed, byte-bool, and ALP and FSST against a constant), gives per row the comparison of the decoded values and null where either is null; extension arrays compare as their storage; different lengths or types are an error. Exceptions: NaN and -0.0 compare by IEEE between primitive arrays but by total order in other encodings; two constants that differ in nullability are unequal; two empty constants panic; a primitive array and a null constant, and 64-bit-offset strings and a constant, are an error; an ALP array is compared with a constant correctly (all six operators) when neither the array nor the constant needs a patch, and wrongly when the array has patches, the constant cannot be encoded or is null.", "quantifier": "all pairs of arrays, all nestings of encodings, all six operators", "why_tests_cant": "Compressed comparison transforms the constant; errors only for values not representable.", "anchors": ["encodings/alp/src/alp/compute.rs", "encodings/dict/src/compute.rs", "encodings/fsst/src/compute.rs", "vortex-array/src/array/constant/compute/compare.rs"]}
{"id": "C26", "title": "Date-time decomposition round-trips", "statement": "Splitting a timestamp array (any integer storage type that fits in 64 signed bits, any encoding, with nulls; units s, ms, us, ns) into days, seconds and sub-seconds succeeds and stands for exactly the given timestamps: recombining returns every original 64-bit value, incl. negative ones and the extremes, with and without overflow checks; reading single rows, slicing and taking rows of the parts, also after the children have been recompressed with any encoding, yields the corresponding timestamps. Day-unit data is rejected. (Known exception: in builds with overflow checks, decoding parts whose null rows carry large day values panics.)", "quantifier": "all timestamp arrays, all units, all child encodings, all slices and takes", "why_tests_cant": "Truncating division of negative values and overflow at extremes.", "anchors": ["encodings/datetime-parts/src/compress.rs", "encodings/datetime-parts/src/compute.rs"]}
{"id": "C27", "title": "Roaring encodings are faithful", "statement": "Roaring-encoding an unsigned integer array whose stored values fit in u32 yields an array holding each value once in increasing order; a strictly increasing array without nulls keeps every row, and any other loses its order, duplicates or nulls silently; larger values and other types are errors; a bitmap becomes an integer array exactly when every member fits the unsigned type. Roaring-encoding a boolean array of at most 2^32 rows without nulls keeps every row (nulls become values). Decoding, scalar_at, take and filter agree with the rows. Slicing agrees with the rows for every non-empty range and, for booleans of fewer than 2^32 rows, for every range; for integers the empty range at position 0 yields the first row and the one at the end is an error. Statistics are true of the rows where they are computed, except that u8, u16 and u64 arrays report u32 histograms; sortedness of a boolean array of 64 rows or more panics if its last incomplete group of 64 rows has no true.", "quantifier": "all sets of u32 values, all boolean arrays, all bounds, indices and masks", "why_tests_cant": "Boundary cases of slicing via rank/select.", "anchors": ["encodings/roaring/src/integer/compute.rs", "encodings/roaring/src/boolean/compute.rs"]}
{"id": "C28", "title": "Byte-per-bool arrays are faithful", "statement": "A byte-bool array built from booleans reads every element consistently across scalar_at, slice, take, filter and decoding and keeps nulls. Known defects (refuted theorems): bytes other than 0 and 1, which the constructor accepts, are false through scalar_at and true after decoding; take makes a non-nullable array nullable.", "quantifier": "all byte arrays and validities", "why_tests_cant": "All byte patterns and operations.", "anchors": ["encodings/bytebool/src/array.rs", "encodings/bytebool/src/compute.rs"]}
{"id": "C29", "title": "Statistics are sound", "statement": "Any min, max, null count, true count, is_constant, is_sorted, is_strict_sorted, run count, bit-width or trailing-zero histogram reported for an array is true of its decoded contents (values being ordered as the numbers, booleans and byte strings they are, nulls after them; sortedness and run counts speaking of the non-null values; run counts of merged chunks are upper bounds), except in the following cases where the code is wrong and which have refuted theorems: booleans with nulls and no false value (min), floats holding -0.0 (is_constant), an empty constant array, dictionaries with nulls, duplicates or unused entries, and chunks to which C30's exceptions apply.", "quantifier": "all arrays with and without nulls", "why_tests_cant": "Statistics drive pruning and shortcut evaluation: a wrong one silently drops rows.", "anchors": ["vortex-array/src/array/*/stats.rs", "encodings/*/src/stats.rs"]}
{"id": "C30", "title": "Merging statistics is sound", "statement": "Merging the statistics of two consecutive chunks yields statistics that are true of their concatenation, provided the two chunks are both all-null or both have a non-null value (or min/max are unknown), is_constant comes with a known min, and no -0.0 occurs; min, null count, true count and run-count bound merge soundly with no such proviso. Outside the provisos the merged maximum and is_constant can be wrong (refuted theorems).", "quantifier": "all pairs (and by iteration all lists) of chunks and statistic sets", "why_tests_cant": "All combinations of present/absent/null statistics.", "anchors": ["vortex-array/src/stats/statsset.rs: StatsSet::merge_*"]}
{"id": "C31", "title": "Subtracting a scalar", "statement": "On primitive integer arrays and nested chunked arrays of them, when no valid element overflows, subtract_scalar(a, c) has the nulls of a and every other element reduced by c, and the dtype of a unless a (or a chunk) is of nullable type but contains no null and c is not 0; a scalar of another type, or a null one, is an error. Known defects (refuted theorems): nullable integer arrays without nulls become non-nullable and make the chunked operation fail; float subtraction forgets nulls; overflow panics without nulls but wraps silently with nulls.", "quantifier": "all primitive arrays and scalars", "why_tests_cant": "All types and validity combinations.", "anchors": ["vortex-array/src/array/primitive/compute/subtract_scalar.rs"]}
{"id": "C32", "title": "fill_forward", "statement": "fill_forward replaces each null by the closest preceding valid value (zero/false when none), leaves valid values unchanged, keeps the dtype and produces no nulls; it succeeds exactly on non-nullable arrays and on primitive and boolean arrays, and never panics.", "quantifier": "all nullable arrays", "why_tests_cant": "All null patterns.", "anchors": ["vortex-array/src/array/primitive/compute/fill.rs", "vortex-array/src/array/bool/compute/fill.rs"]}
{"id": "C33", "title": "Scalar and dtype serialisation round-trips", "statement": "Serialising a dtype as a flatbuffer or protobuf message and reading it back yields the same dtype, at any nesting; reading a struct dtype with a projection yields exactly the selected names and types, and an unknown name is an error. A scalar sent through protobuf comes back identical, and one sent through a flatbuffer reads back (with its dtype) as the original whatever integer widths the wire format chose. Exceptions, recorded as theorems: through protobuf u8 and u16 values are rejected on reading and i8/i16 values come back as i32 (same number when read, but not equal); through flatbuffers binary values come back as lists, and f16 values may come back unreadable.", "quantifier": "all dtypes and well-typed scalars of any nesting depth, all projections, all choices of integer width on the wire", "why_tests_cant": "DTypes and scalars are recursive; depth unbounded.", "anchors": ["vortex-dtype/src/serde/flatbuffers/mod.rs", "vortex-dtype/src/serde/proto.rs", "vortex-scalar/src/serde/*.rs"]}
{"id": "C34", "title": "IPC stream framing round-trips and stays aligned", "statement": "Any non-empty sequence of dtype messages, record batches and pages written by the stream writer is read back as exactly the same sequence with exactly the same buffer bytes, every message and every buffer starting at a multiple of 64 bytes, and the reader then reports the end of the stream. Reading the dtype and then the array stream returns the dtype and the batches, and leaves the reader on the first message that is not a batch. Writing batches reports byte and row offsets that tile the file: offset k to offset k+1 is exactly batch k. Exceptions: messages and pages must be shorter than 4 GiB (the sizes are cast to u32; a page of exactly 2^32 bytes is recorded with size 0), and the encoding of every batch must be registered with the reader.", "quantifier": "all message sequences, array trees, buffer counts and buffer sizes (including empty), all flatbuffer codecs that decode what they encode", "why_tests_cant": "Padding arithmetic over all residues modulo 64 and all histories of writes.", "anchors": ["vortex-serde/src/message_writer.rs", "vortex-serde/src/message_reader.rs"]}
{"id": "C35", "title": "Array trees survive serialisation", "statement": "Writing an array tree as (encoding, metadata, children) plus a flat list of buffers and viewing it back yields the same tree with each node owning the same buffers.", "quantifier": "all array trees of any shape, any number of buffers per node", "why_tests_cant": "Depth-first buffer numbering must agree between writer and lazily-navigating reader at every node.", "anchors": ["vortex-serde/src/messages.rs: IPCArray", "vortex-array/src/view.rs: ArrayView"]}
{"id": "C36", "title": "Truncated or corrupted input is reported", "statement": "Reading a stream cut at any byte position yields a prefix of the items written, unaltered, and then: the end of the stream exactly when the cut is at an item boundary or inside the four length bytes of the next message, and an error for every other cut (a cut inside the first four bytes of the stream panics). Opening a file of any contents yields a footer or an error; it panics only for a file of 8 to 39 bytes that ends in a valid end-of-file record. Opening a file that was cut anywhere (its last 8 bytes no longer the end-of-file record) is an error. A file whose schema lies more than 8 MiB before its end panics when its dtype is read.", "quantifier": "all crash/truncation points of all streams, all file contents and sizes", "why_tests_cant": "Every truncation point of every stream.", "anchors": ["vortex-serde/src/message_reader.rs: load", "vortex-serde/src/layouts/read/footer.rs: read_footer"]}
{"id": "C37", "title": "File round-trip", "statement": "Writing record batches to a file in any number of calls and scanning it without a filter succeeds and returns the same rows in the same order for any positive batch size; every returned batch except the last has exactly the requested number of rows. The byte range recorded in the footer for every chunk of every column holds exactly that chunk's message, so the ranges do not overlap. Conditions: at least one column and one batch, struct batches without struct-level nulls, fewer than 65536 chunks per column, schema and footer within the last 8 MiB of the file. Outside them: a file with columns but no batch panics when opened, struct-level nulls are dropped silently, chunk ids collide, and batch size 0 yields no rows.", "quantifier": "all schemas, batch sequences, groupings into write calls, chunkings of columns and read batch sizes, all flatbuffer codecs that decode what they encode", "why_tests_cant": "Re-batching across chunk boundaries for every chunk-size/batch-size relation.", "anchors": ["vortex-serde/src/layouts/write/writer.rs", "vortex-serde/src/layouts/read/{stream,batch,buffered,column...}.rs"]}
{"id": "C38", "title": "Filtered scans return exactly the matching rows", "statement": "Scanning with a row filter returns exactly the rows for which the filter is true, in order and with the projection applied, whenever every block of batch-size rows except the last contains at least one matching row. Without that condition the claim is false of the code: after a block without matches, the next block is returned unfiltered.", "quantifier": "all files, chunkings, projections, filters and batch sizes", "why_tests_cant": "A state machine interleaves filter and data reads; depends on which batches are empty after filtering.", "anchors": ["vortex-serde/src/layouts/read/stream.rs: LayoutBatchStream", "vortex-serde/src/layouts/read/filtering.rs"]}
{"id": "C39", "title": "Projection", "statement": "Scanning with a projection given by names and indices returns the requested columns in the requested order with their original contents; looking a field up by name finds the first field of that name and agrees with looking it up by its index, and an unknown name is an error. Exceptions: an index past the end panics, and the empty projection is an error.", "quantifier": "all schemas (including repeated names), all non-empty projections with repetitions, all files", "why_tests_cant": "All permutations/subsets.", "anchors": ["vortex-dtype/src/dtype.rs: StructDType", "vortex-schema/src/lib.rs", "vortex-serde/src/layouts/read/layouts/column.rs"]}
{"id": "C40", "title": "Statistics-based pruning never drops a matching row", "statement": "Pruning predicates derived from a filter never cause a matching row to be dropped, for the filters the rewrite handles soundly: if the min/max statistics of a block bound its non-null values (a missing statistic says nothing) and the rewritten predicate evaluates to true on them, then no row of the block satisfies the original filter. Handled: =, <>, >, < between a column and an expression without columns (either side), =, >, < between two columns, and conjunctions in which at least one side is handled. In those cases the rewrite is also effective: a comparison with a literal is pruned whenever no value between the bounds satisfies it. The code is NOT sound beyond that, which is proved too: >= and <= when the bound equals the literal, disjunctions (a block is skipped when either side can be), everything that falls back to literal true (a bare boolean column, literal against literal, a column against itself), and <> between two columns.", "quantifier": "all handled filters of any nesting, all column types, all blocks and all statistics that bound them, nulls included; NaN rows only under missing bounds", "why_tests_cant": "All expressions and all data consistent with the stats.", "anchors": ["vortex-serde/src/layouts/pruning.rs"]}
{"id": "C41", "title": "Row take from a chunked file", "statement": "take_rows on a chunked file, given a non-empty strictly increasing list of non-nullable row ids that are all below the number of rows, returns exactly those rows in order and with the file's data type, for any layout of chunks including empty ones and ids on chunk boundaries; it succeeds whenever take on every chunk does and the id type can hold the number of rows. A negative id or one beyond the last row is an error. Exceptions recorded as theorems: an empty or not strictly increasing list aborts the program, and ids of a type too narrow for the end of their chunk give an error.", "quantifier": "all chunk layouts, all encodings of the chunks, all strictly increasing row id lists, all integer id types, all stream contents before and after the chunks", "why_tests_cant": "Boundaries between chunks and empty chunks.", "anchors": ["vortex-serde/src/chunked_reader/take_rows.rs", "vortex-array/src/stream/take_rows.rs"]}
{"id": "C42", "title": "Expression rewriting keeps meaning", "statement": "Evaluating a filter expression on a struct batch gives, row by row, the expression's meaning (comparisons and connectives null where an operand is null), whatever the encodings of the columns; it succeeds for boolean columns, comparisons of non-constant columns with columns or non-null literals of the same type, and their and/or. Splitting a filter into conjuncts keeps the set of passing rows. A row filter, which evaluates the conjuncts one after another and stops when no row is left, returns a non-null mask true exactly for the rows that pass the original filter, provided the first conjunct's true-count statistic is not missing while rows are true. Swapping the operator with its operands keeps the meaning; inverting it negates the comparison of comparable non-null values. Select keeps (or drops) exactly the named columns. Stated exceptions, proved: a missing true count (an empty chunk in a chunked column, a dictionary-encoded boolean first conjunct) makes the row filter drop rows that pass; batches that are not StructArrays are errors.", "quantifier": "all expressions of any nesting over columns and literals of flat types (no NaN, no -0.0; = and <> of two constants only for equal types), all batches of any length and encoding, nulls included", "why_tests_cant": "Expressions are recursive.", "anchors": ["vortex-expr/src/lib.rs: split_conjunction", "vortex-expr/src/operators.rs"]}
{"id": "C43", "title": "Boolean and/or semantics", "statement": "and / or of two boolean arrays in any encodings give per row the conjunction/disjunction, and null where either side is null (the code has no Kleene variants: null or true is null); other types or lengths are an error. Exceptions: a constant combined with anything but a BoolArray or a non-empty constant is an error.", "quantifier": "all pairs of boolean arrays, all encodings", "why_tests_cant": "All validity combinations and encodings.", "anchors": ["vortex-array/src/compute/boolean.rs", "vortex-array/src/array/bool/compute/boolean.rs", "vortex-array/src/array/constant/compute/boolean.rs"]}
{"id": "C44", "title": "Adaptive compression is lossless whatever it chooses", "statement": "Whatever the sampling compressor chooses at each level (constant, per-chunk after rechunking, per-field, frame of reference, ZigZag, bit-packing with or without patches, run-end, dictionary, sparse; any nesting, any depth, any chunk-size targets), compressing succeeds and the compressed array has the same type, reads the same at every index and decodes to the same values. Excluded inputs, for which it is false or fails: columns of dtype null (the constant form cannot be decoded), floating-point columns with negative zeros (merged with zero), slices of sparse arrays (the offset is dropped), binary views (re-read as UTF-8), and columns of more than 2^64 rows or 2 GiB of strings.", "quantifier": "all arrays satisfying the stated conditions, all compressor choices, all nesting depths, all chunk-size targets", "why_tests_cant": "Choices depend on random samples; the number of encoding trees is unbounded.", "anchors": ["vortex-sampling-compressor/src/lib.rs", "vortex-sampling-compressor/src/compressors/*.rs"]}
{"id": "C45", "title": "Scalar ordering and casting", "statement": "Scalar comparison is reflexive, antisymmetric and transitive, total on values of one type (up to the type's own nullability; scalars whose types differ in more are incomparable), says 'equal' only for identical values, and places null above every other value; `==` agrees with it on values without floats (negative zero and NaN, and scalars of differently-nullable types, are documented exceptions). Casting a scalar gives a scalar of the requested type, null exactly if the original is null; integers keep their number or the cast is an error; floats cast to integers lose their fraction or the cast is an error; integers small enough for the mantissa of f32/f64, and floats cast to wider floats, keep their number exactly; struct scalars are cast field by field. Casting a primitive array casts every element so and keeps the nulls, or is an error. (Documented exceptions: casts to floats otherwise round; a null cast to another number type, and list and extension casts, panic; numbers stored under nulls must be castable too.)", "quantifier": "all scalars of any type and nesting, all pairs of primitive types, all primitive arrays", "why_tests_cant": "All pairs/triples of values.", "anchors": ["vortex-scalar/src/value.rs", "vortex-scalar/src/pvalue.rs", "vortex-array/src/array/primitive/compute/cast.rs"]}
{"id": "C46", "title": "The compressor's samples are stratified slices of the array", "statement": "Splitting a range of indices into n parts (1 <= n <= length) gives n contiguous parts, in order, covering the range exactly, with sizes that differ by at most one, longer ones first. For positive sample sizes and counts whose product is below 2^16, whatever the random numbers: an array no longer than the sample is sampled entirely; from a longer one exactly `count` slices of `size` elements are taken, all inside the array, in order, not overlapping, one from each equal part; the sample array built from them holds a subsequence of the array's elements (count * size of them) with the array's type. Exceptions: a product of 2^16 or more, and a sample size or count of 0, panic.", "quantifier": "all lengths, sample sizes and counts, all outcomes of the random number generator, all arrays and encodings", "why_tests_cant": "Random draws; every length and count.", "anchors": ["vortex-sampling-compressor/src/sampling.rs:stratified_slices", "vortex-sampling-compressor/src/sampling.rs:partition_indices", "vortex-sampling-compressor/src/lib.rs:335-352"]}
{"id": "C47", "title": "Temporal types survive metadata and Arrow conversion", "statement": "Writing a temporal type (time, date or timestamp, its unit and time zone) as extension metadata and reading it back gives the same type, so distinct temporal types have distinct extension types; converting an Arrow temporal type to an extension type and back, and an extension type to Arrow and back, gives the same type. Unknown ids, missing metadata and unknown unit tags are errors. Exceptions: an empty time zone is read back as none; metadata that is too short panics; a time zone of 2^16 bytes or more panics.", "quantifier": "all units, all time zones, all Arrow temporal types, all metadata bytes", "why_tests_cant": "All time-zone strings and all byte strings.", "anchors": ["vortex-datetime-dtype/src/temporal.rs", "vortex-datetime-dtype/src/unit.rs", "vortex-datetime-dtype/src/arrow.rs", "vortex-dtype/src/extension.rs"]}
{"id": "C48", "title": "Arrow conversion preserves values and types", "statement": "Importing an Arrow array or record batch gives an array with the same rows, nulls and type; exporting an array (whatever its encodings) to Arrow gives the same rows, nulls and the Arrow type of its data type; exported arrays are well-formed Arrow arrays; a round trip either way keeps the values, and the type up to string views. Data types convert to Arrow types and back unchanged. Only a struct has a schema, and only a struct without null rows becomes a record batch; one of decodable number, boolean and string columns always does. Exceptions: time zones of timestamp columns are lost in both directions; a null buffer on a column declared non-nullable panics even if no row is null; a struct without fields loses its row count on export; columns whose canonical form is not implemented (binary with offsets, non-temporal extensions) are errors.", "quantifier": "all Arrow arrays and types, all Vortex arrays, any nesting and encoding", "why_tests_cant": "All arrays, null patterns, offsets and nestings.", "anchors": ["vortex-array/src/arrow/array.rs", "vortex-array/src/arrow/dtype.rs", "vortex-array/src/arrow/recordbatch.rs", "vortex-array/src/canonical.rs", "vortex-array/src/array/datetime/mod.rs"]}
{"id": "C49", "title": "Iteration and element-wise functions see every row once, in order", "statement": "Iterating over an array (in batches, flattened, or with with_iterator) yields exactly its rows in order, None for null rows; batches have 1024 elements except the last, and none is empty. A unary function is applied to each non-null row, a binary function to each pair of non-null rows, with null elsewhere; every slot of the output is written. The validity an accessor reports, as a mask and row by row, is that of the rows. Mismatched lengths or types are errors. Exceptions: iterating an ALP array ignores patches that are not a primitive array (the encoder makes sparse ones); iterating a null constant panics; the batch iterator's exact size counts elements, not batches; a binary function panics when its second array is encoded or holds f16 values.", "quantifier": "all arrays with an iterator, all lengths, validities and functions", "why_tests_cant": "All lengths around the batch size, all validities and all functions.", "anchors": ["vortex-array/src/iter/mod.rs", "vortex-array/src/accessor.rs", "vortex-array/src/array/*/accessor*.rs", "vortex-array/src/array/primitive/mod.rs: Accessor, UnaryFn, BinaryFn", "vortex-array/src/array/constant/variants.rs: Accessor", "vortex-array/src/elementwise.rs", "encodings/alp/src/alp/array.rs: ALPAccessor"]}
{"id": "C50", "title": "Columns and projections of struct arrays", "statement": "Asking a struct array (plain, constant, chunked or sparse) for its i-th column gives an array of the i-th type with as many rows, whose rows are the i-th components of the struct rows (arbitrary where the struct row is null); asking by name gives the first column of that name. Projecting keeps exactly the chosen columns, in the chosen order with repetitions, of every row, and the nullness of rows; names, types and nullability follow. Every column is found and every projection onto existing columns succeeds; a column beyond the last is None and an unknown name is never accepted. Exceptions: a constant null struct has no columns; projecting by an index out of range panics instead of failing.", "quantifier": "all well-formed struct arrays in every encoding that can hold structs, nested chunking included, all projections by name or index", "why_tests_cant": "All nestings of chunked, constant and sparse arrays, all names and projections.", "anchors": ["vortex-array/src/variants.rs: StructArrayTrait", "vortex-array/src/array/struct_/mod.rs: StructArray::project, field", "vortex-array/src/array/constant/variants.rs: StructArrayTrait", "vortex-array/src/array/sparse/variants.rs: StructArrayTrait", "vortex-array/src/array/chunked/variants.rs: StructArrayTrait", "vortex-scalar/src/struct_.rs: StructScalar::project, field_by_idx", "vortex-dtype/src/dtype.rs: StructDType::project"]}
{"id": "C51", "title": "Boolean inversion and positions of set values", "statement": "Inverting a boolean array (plain, byte-bool, constant, sparse or chunked) swaps true and false in every row and keeps nulls; inverting twice gives the rows back; it succeeds whenever the array can be decoded. The type is kept, except that a nullable constant that is not null becomes non-nullable. The positions of set values of a plain boolean array whose bits start at bit 0 and of a constant are in increasing order, include every true row and no false row; the ranges of set values cover the same positions in the same order. Exceptions: of a plain boolean array sliced inside a byte the positions are those of other bits; a sparse array gives the positions of all its patches, true or false, and does not see a fill value of true; chunked and byte-bool arrays panic.", "quantifier": "all well-formed boolean arrays in every encoding with a boolean view, all lengths, offsets and validities", "why_tests_cant": "All bit offsets, lengths, validities and nestings.", "anchors": ["vortex-array/src/variants.rs: BoolArrayTrait", "vortex-array/src/array/bool/mod.rs: maybe_null_indices_iter, maybe_null_slices_iter", "vortex-array/src/array/constant/variants.rs: BoolArrayTrait", "vortex-array/src/array/sparse/variants.rs: BoolArrayTrait", "vortex-array/src/array/chunked/variants.rs: BoolArrayTrait", "encodings/bytebool/src/array.rs: BoolArrayTrait"]}
{"id": "C52", "title": "DataFusion queries on in-memory tables", "statement": "The table provider accepts for pushdown exactly the filters built with and, or and comparisons from columns of the schema and literals, none of a large, nested or duration type. An accepted filter can be turned into a Vortex expression (its literals being of Arrow types Vortex knows). On every row the converted filter, where it is not null, has DataFusion's value; where no column or literal it uses is null the two are equal; and a conjunction of comparisons is true on the same rows. A filtered scan that succeeds returns, batch by batch in table order, the requested columns in the requested order of rows chosen by a mask; the mask is the filter on every row where nothing the filter uses is null, and a row that passes a conjunction of comparisons is never left out; so on tables without nulls in those columns the result is exactly the rows of the query, in order. A scan without filter returns the requested columns of all rows of chunks in any encoding. On chunks of decodable number, boolean and string columns without null rows both scans succeed, the filtered one if its filter compares columns with columns or non-null literals of like types. Exceptions: null OR true is null for Vortex; rows on which the filter is null are returned if the bits stored under the null say so, although the filter is accepted as exact; a null literal loses its type, so an accepted filter can fail; a scan of no columns reports no rows.", "quantifier": "all filters, literals, tables and chunkings, output projections and orders of the filter's columns", "why_tests_cant": "All filter expressions, rows, chunkings, null patterns and stored bits under nulls.", "anchors": ["vortex-datafusion/src/lib.rs: can_be_pushed_down, supported_data_types, VortexRecordBatchStream", "vortex-datafusion/src/memory.rs: VortexMemTable, make_filter_then_take_plan", "vortex-datafusion/src/plans.rs: RowIndicesStream, TakeRowsStream", "vortex-expr/src/datafusion.rs: convert_expr_to_vortex", "vortex-scalar/src/datafusion.rs: From<ScalarValue> for Scalar"]}
{"id": "C53", "title": "The compressor's own choices are safe", "statement": "Compressing an array with the sampling compressor - whatever it chooses from samples, size comparisons and choices made for earlier chunks, for every configuration with non-empty samples and every state of the random generator - succeeds and keeps the type and every value; so does compressing another array of the same type with the choices made for the first. Whatever the array's length, the encoding chosen is one that is enabled, not excluded, applicable to the array and within the cost limit; the costs of nested encodings never exceed the limit; and an array no longer than a sample is only re-encoded if that makes it smaller (with the overhead per nested encoding), and no other allowed encoding gives a smaller result. Exceptions: chunked columns with dictionary chunks may be taken for constants, and then data is lost; choices for another type make the compressor panic; arrays longer than a sample may grow.", "quantifier": "all arrays of the stated class, configurations, size functions, random draws, orders of the set of compressors, and recursion depths", "why_tests_cant": "All inputs, configurations, random seeds and histories of earlier chunks whose choices are reused.", "anchors": ["vortex-sampling-compressor/src/lib.rs: SamplingCompressor::compress, compress_array, find_best_compression, objective_function", "vortex-sampling-compressor/src/compressors/mod.rs: CompressionTree", "vortex-sampling-compressor/src/compressors/chunked.rs: compress_chunked", "vortex-sampling-compressor/src/compressors/*.rs", "vortex-array/src/stats/statsset.rs: merge_is_constant"]}
{"id": "C54", "title": "Cached statistics stay true whatever is asked, in whatever order", "statement": "Let every statistic stored with an array and its parts (chunks, codes and values of a dictionary) be true. After any sequence of statistics().get / to_set / compute / set (of true values), of sending the array or a part through a message and reading it in place, and of turning a view into owned data, asked of the array or of any part in any order: every answer is true of the elements of the part asked, a statistic once known to a part stays known, and any two answers about the same part agree on null count, true count, sortedness, minimum and maximum. What is read back from a message is what was stored.", "quantifier": "every well-formed array in the class of C29 (chunked and dictionary arrays nested to any depth), every true initial content of the caches, every finite history of queries over every part", "why_tests_cant": "the answer depends on what earlier queries left in the shared caches of the array and its children; the number of histories is unbounded, and tests start from fresh arrays", "anchors": ["vortex-array/src/data.rs: Statistics for ArrayData", "vortex-array/src/view.rs: Statistics for ArrayView", "vortex-array/src/stats/flatbuffers.rs: WriteFlatBuffer", "vortex-array/src/stats/mod.rs: Statistics", "vortex-array/src/array/chunked/stats.rs: compute_statistics", "encodings/dict/src/stats.rs: compute_statistics", "vortex-array/src/implementation.rs: to_array_data"]}
{"id": "C55", "title": "Checked constructors accept exactly the parts that fit", "statement": "For every encoding, try_new returns an array exactly when the given parts satisfy the documented conditions (types of the children, lengths, validity length, order of run ends, last sparse position, width and padding of bit-packed data, number of symbols or dictionary entries) and an error otherwise; it panics exactly for no string offsets, no boolean run ends, a last sparse position before the offset, or more than eight dictionary parts. What is accepted has the announced length and type, and reads as an array whenever its children do. The conditions do not exclude all inconsistent parts: dictionary codes outside the dictionary, unordered sparse positions, run ends that stop early, string offsets or views outside the data and bytes other than 0 and 1 are accepted, and reading them fails, panics or depends on how they are read.", "quantifier": "every combination of parts: child arrays of any encoding nested to any depth, any validity, any length and offset", "why_tests_cant": "each condition is a boundary over unbounded lengths and every encoding of the children; tests try a few accepted and a few rejected combinations", "anchors": ["vortex-array/src/array/struct_/mod.rs: StructArray::try_new", "vortex-array/src/array/chunked/mod.rs: ChunkedArray::try_new", "vortex-array/src/array/varbin/mod.rs: VarBinArray::try_new", "vortex-array/src/array/varbinview/mod.rs: VarBinViewArray::try_new", "vortex-array/src/array/sparse/mod.rs: SparseArray::try_new", "vortex-array/src/array/bool/mod.rs: BoolArray::try_new", "encodings/dict/src/array.rs: DictArray::try_new", "encodings/runend/src/array.rs: RunEndArray::try_new", "encodings/runend-bool/src/array.rs: RunEndBoolArray::try_new", "encodings/zigzag/src/array.rs: ZigZagArray::try_new", "encodings/fastlanes/src/bitpacking/mod.rs: BitPackedArray::try_new", "encodings/bytebool/src/array.rs: ByteBoolArray::try_new", "encodings/datetime-parts/src/array.rs: DateTimePartsArray::try_new", "encodings/alp/src/alp/array.rs: ALPArray::try_new", "encodings/alp/src/alp_rd/array.rs: ALPRDArray::try_new", "encodings/fsst/src/array.rs: FSSTArray::try_new", "encodings/roaring/src/boolean/mod.rs: RoaringBoolArray::try_new"]}
{"id": "C56", "title": "The storage of an extension array has its rows", "statement": "Whenever storage_array of an extension array (extension, chunked, sparse or constant, nested) returns, the result has the same length and the same element at every position. It returns, with the storage type, if all parts hold values of one storage type and there is at least one chunk; reading a row of the storage of chunks is then reading the row. Where constants do not have the type of the others (booleans, nulls), the storage of a constant has another type and chunks with a null constant have no storage.", "quantifier": "every extension array: any nesting of chunks, sparse and constant parts, any storage encoding, any length", "why_tests_cant": "the storage is rebuilt recursively from parts of any encoding and nesting; tests cover single arrays", "anchors": ["vortex-array/src/variants.rs: ExtensionArrayTrait::storage_array", "vortex-array/src/array/extension/mod.rs: storage_array", "vortex-array/src/array/chunked/variants.rs: storage_array", "vortex-array/src/array/sparse/variants.rs: storage_array", "vortex-array/src/array/constant/variants.rs: storage_array"]}
{"id": "C57", "title": "A buffer is its bytes however it is held, and a BufferString is a text", "statement": "A buffer reads back the bytes it was made of, and equality and order are those of the bytes, whether an Arrow buffer or a Bytes holds them. A slice within the buffer is the bytes of the range, and a slice of a slice is a slice. A BufferString is made of exactly the buffers whose bytes encode a sequence of Unicode scalar values (one sequence only), and strings are ordered and equal as these sequences. flexbuffers slices never panic; into_vec gives the bytes or the buffer back; nested I/O slices within bounds are the bytes of the range. Where the API falls short: slices past the end, or reversed, of equal buffers differ with how they are held, and IoBuf::slice_owned does not refuse a range past the end, so as_slice reads the memory after the buffer.", "quantifier": "every buffer of either kind, every range, every sequence of slices, every byte string and text of any length", "why_tests_cant": "all byte strings, all ranges in and out of bounds and all nestings; tests look at a few literals, and the out-of-bounds read shows only in what lies next in memory", "anchors": ["vortex-buffer/src/lib.rs: Buffer", "vortex-buffer/src/string.rs: BufferString", "vortex-buffer/src/flexbuffers.rs: slice, buffer_str", "vortex-buffer/src/io_buf.rs: IoBuf::slice_owned, Slice"]}
{"id": "C58", "title": "Every positioned reader reads the bytes it holds, and writers keep what is written in order", "statement": "A slice, a Buffer, an object of a store, and any of these behind any number of offsets give for a position and length within them exactly the bytes there, and as their size the number of bytes; sources in memory refuse every read past the end, and no two that hold the same bytes can be told apart. A cursor over a source reads like the bytes themselves: consecutive pieces, none twice and none left out, also after a refused read. A Vec holds everything written; an object appears only when shutdown succeeds, with everything written before it and nothing after. Where it falls short: when a store answers a range past the end with the bytes there are, the object reader panics instead of refusing, and so does the size of an offset reader whose offset is past the end.", "quantifier": "every source, nesting of offsets, position, length, sequence of reads, sequence of writer calls and answers of the store", "why_tests_cant": "all positions, lengths and interleavings of reads and refusals, and all histories of writer calls including failures of the store", "anchors": ["vortex-serde/src/io/read.rs: VortexRead, VortexReadAt", "vortex-serde/src/io/offset.rs: OffsetReadAt", "vortex-serde/src/io/object_store.rs: ObjectStoreReadAt, ObjectStoreWriter, vortex_read", "vortex-serde/src/io/write.rs: VortexWrite"]}
