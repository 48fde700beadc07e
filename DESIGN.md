# Formal model of spiraldb/vortex in Rocq (Coq 8.16.1)

## 1. Approach

* Standard library only, no axioms of our own. Every model definition cites the Rust file and lines it models and names its
  simplifications.
* `Base.v`: the `result` type (`Ok`, `Err` for a returned `VortexError`, `Panic` for a Rust panic or `unimplemented!`/`unwrap`),
  machine-integer ranges and wrap-around, list lemmas.
* `Spec.v`, `CmpSpec.v`, `ExprSpec.v`: the small independent specifications. An array *means* a `list value` (`VNull` for null);
  slice = `firstn`/`skipn`, take = map of `nth`, filter = select by mask, search = counting elements, comparison = comparison of values,
  an expression = a function of a row.
* `Arr.v`: the type `array` of encoding trees: the seven canonical forms (null, bool, primitive, string view, struct, extension; and
  varbin) plus constant, sparse, chunked, dictionary, run-end, frame-of-reference, zigzag, bit-packed (with offset and patches) and
  byte-bool, nested arbitrarily. `logical : array -> list value` is the denotation, defined without using the model's operations.
* `ArrWf.v`: `wf f a`, the representation invariant. The record `f : flags` names *classes*: each flag excludes the trees on which one
  operation of the real code is wrong or can fail, and for each exclusion there is a `_refuted` theorem showing the code wrong there:
  `fs` slicing, `fn` empty slices, `fc` decoding correct, `fC` decoding total, `fv` reported validity, `ft` take correct,
  `fT` take total, `fN` take total for non-empty u64 indices, `fF` filter total, `fk` take keeps the data type.
* `<Area>.v`: model; `*Proofs.v`, `Ops*.v`: proofs; `Prop*.v`: property theorems with `Print Assumptions`, a non-vacuity `Example`, and
  the `_refuted` theorems.
* Policy: where the unchanged code violates the property as first written, the property's statement was amended to name the exception,
  and the exception is itself a theorem (`_refuted`) with a concrete or universally quantified witness. `_partial` marks theorems that
  cover only part of the (amended) statement.

## 2. Properties: what is modelled and how it is proved

| id | model files | theorem files | proof method |
|----|-------------|---------------|--------------|
| C01 | Arr, ArrRead (scalar_at) | ArrReadProofs, PropRead | induction on trees |
| C02 | ArrSlice | ArrSliceProofs, ArrSliceMain, PropSlice | induction on trees; searches via C07 |
| C03-C06 | ArrOps (canon, take, filter, logical validity; one mutually recursive step function iterated to the depth of the tree) | OpsBase .. OpsMain, PropOps, PropOpsX | induction on depth; total/partial correctness together (`outc`) |
| C07 | SearchModel | SearchProofs, PropSearch | loop invariants |
| C08 | ArrRead (per-encoding search), ArrWf (ss_ok, ix_ok, cval: the class searched) | ArrReadProofs, PropRead, PropOpsX | reduction to C07 by induction over the encoding; refutations for sparse, shifted signed FoR, empty constants and the u64 batch search |
| C09-C11 | IntEnc | PropIntEnc | Z arithmetic; induction over blocks |
| C12 | ArrRead, ArrSlice, ArrOps | BitpackTake, PropIntEnc | list induction |
| C13 | Delta | PropDelta | induction over lanes and chunks |
| C14, C15 | RunEnc | PropRunEnc | list induction, strict sortedness |
| C16 | DictEnc | PropDict | invariant of the insertion loop |
| C17, C18, C28 | Arr, ArrOps | PropEnc, PropRechunk | instances of C01-C06 with per-encoding statements; rechunking (any targets, any notion of a chunk's size) by an invariant on the open run |
| C19 | ValidityModel | PropValidity | list induction |
| C20 | ArrOps, PropVarBin (builder) | OpsVarBin, PropVarBin | prefix sums |
| C21 | PropView (builder over an arbitrary block policy) | PropView | invariant of the builder |
| C22 | Fsst | PropFsst | codes are a relation `spells` between code strings and bytes, the decoder inverts it; bulk decoding by concatenation (null rows take no bytes); slice/take/filter/compare through the VarBin theorems |
| C23 | Alp | PropAlp, AlpOrder (monotone rounding, for C25), PropAlpCmp | concrete float arithmetic (SpecFloat): a value that is not patched compared equal after decoding, and equal floats have equal bits, zeros aside; invariant over the chunk loop; patches through the sparse theorems |
| C24 | AlpRd | PropAlpRd | shifts and masks on bit patterns; bit-packed and sparse children through their theorems |
| C25, C43 | Compare | CmpProofs, PropCompare | induction on depth |
| C26 | DateTime | DateTime | div/mod |
| C27 | Roaring | PropRoaring | bitmaps as strictly increasing lists; rank/select and ranges by nth; statistics by simulation with the boolean accumulator of C29 |
| C29, C30 | StatsModel | StatsProofs*, PropStats, PropStatsOrder | soundness relation, induction |
| C31, C32 | Unary | PropUnary | list induction |
| C33 | Serde | PropSerde | structural induction |
| C34-C36 | Ipc (byte-level writer, reader state machine) | PropIpc | invariants over the byte position; every truncation point |
| C37-C39 | Layout (writer, footer, layout readers, buffered and batch readers, scan state machine) | LayoutRead, LayoutWrite, PropLayout, PropFile, PropFileX | invariants over reader steps |
| C40, C42 | Expr (evaluation, row filter, conjunction split, pruning rewrite) | PropPrune, PropExpr | induction on expressions |
| C41 | TakeRows | PropTakeRows | C03 + C07 + C34; interval decomposition of sorted ids |
| C44 | Compressor (plans: the choice at every node), CompressorSpec (inputs) | CompressorProofs..4, PropCompressor | induction over arbitrary plans; each node's encoder theorem (C09-C18), rechunking by invariant; refutations for the excluded inputs |
| C45 | Compare, Scalars | PropScalar | case analysis |
| C46 | Sampling (partition_indices, stratified_slices, the sample array; the generator is an arbitrary sequence) | PropSampling | induction over the parts; slice and decoding theorems for the sample; overflow and zero sizes refuted |
| C47 | Temporal (metadata bytes, Arrow types) | PropTemporal | case analysis over types; byte lengths |
| C48 | Arrow (arrays, types, record batches; both directions), ArrowSpec (meaning of Arrow arrays) | ArrowProofs, ArrowProofs2, PropArrow | induction on Arrow arrays and on types; canonical_is_lossless for exports |
| C49 | Iter (accessors, batches, with_iterator, unary, binary; uninitialised output slots) | PropIter | induction on the remaining rows; chunk loop invariant |
| C50 | StructOps (field, field_by_name, project of struct, constant, chunked, sparse arrays) | PropStructOps | induction on the array |
| C51 | BoolOps (invert, maybe_null_indices_iter, maybe_null_slices_iter) | PropBoolOps | through the decoder theorem; induction on the bits |
| C52 | MemTable (pushdown, conversion of filters, RowIndicesStream, TakeRowsStream, VortexRecordBatchStream) | PropMemTable, PropScanTotal | induction on the filter; evaluate, projection, take and export theorems composed per chunk |
| C53 | Chooser (compress, compress_array, find_best_compression, CompressionTree reuse, chunk loop) | PropChooser, ChooserCost | induction on the recursion depth: results good, and their trees fit every array of the same type; constant-chunk analysis of the merged statistics |
| C54 | StatCache (get/to_set/set/compute of ArrayData and ArrayView, the statistics table of a message, to_array_data) | PropStatCache | invariant 'everything stored is true' over histories, induction on the array for one computation; extension order on trees of caches |
| C55 | the try_new functions of ArrSlice, RunEnc, DateTime, Alp, AlpRd, Fsst, Roaring, Delta | PropConstruct | case analysis of each check against conditions stated in English terms; the element a check reads is the logical one (C01) |
| C56 | ExtStorage (storage_array of extension, chunked, sparse, constant) | PropExtStorage | induction on the array |
| C57 | Buf (Buffer, BufferString, IoBuf) | PropBuf | bytes of a character as linear forms; induction on texts and slices |
| C58 | Io (VortexReadAt of slices, Buffers, OffsetReadAt, object stores; Cursor, BytesMut; VortexWrite) | PropIo | induction on sources and on sequences of calls |

## 3. Trusted base

* Coq's kernel (8.16.1); `coqchk` agrees. `Print Assumptions` of every claimed theorem reports "Closed under the global context": no
  axioms. (The gate's list of library axioms contains only the `Coq.ssr.ssrunder` module fields that come with loading
  `ZifyBool`/`ssreflect`; no theorem depends on them.)
* The faithfulness of the model to the cited source: the code is not run here, the model was written by reading it.
* External crates, not in /repo, modelled by their documented behaviour:
  fastlanes (bit packing of a block = the list of its fields; delta/transposition = index formulas), the zigzag crate (its formulas),
  arrow's comparison and boolean kernels, arrow's byte-view builder (arbitrary block policy), arrow-array 53.2.0's array constructors (lengths and null buffers they check), num-traits checked/wrapping arithmetic,
  flatbuffers (a codec record whose decoder inverts its encoder also with trailing padding: `Ipc.codec`, `Layout.fcodec`), hash maps
  (association lists), itertools, bytes, `fsst` (symbol tables and a `spells` relation) and `croaring` (sets as strictly increasing
  lists); IEEE arithmetic is that of the standard library's SpecFloat (Alp, FloatCast).
* Hypotheses of theorems are class memberships and size bounds (lengths below 2^64, messages below 2^32 bytes); beside each theorem an
  `Example` shows a concrete case that meets them.

## 4. What is and is not modelled

Modelled: vortex-array (arrays, validity, statistics, compute functions scalar_at, slice, take, filter, search_sorted, compare,
and/or, subtract_scalar, fill_forward, stream take_rows), encodings/{fastlanes, runend, runend-bool, dict, zigzag, bytebool,
datetime-parts, alp (ALP with its exponent search, ALP-RD), fsst, roaring}, vortex-scalar
(comparison, casts, conversions, serialisation), vortex-sampling-compressor (what each chosen compressor does), vortex-serde (stream writer and reader, message framing, chunked reader's take_rows, layouts: writer, footer, readers,
scan, pruning, row filter), vortex-expr, vortex-buffer.

Not modelled, or simplified:
* async scheduling: futures are run to completion in order; buffered reads only overlap I/O, which the model does not observe.
* In-memory layout: buffers are lists of bytes or of values; alignment and reference counting are not represented (alignment of the
  *written* stream is, C34). Validity children are represented by their bits.
* The statistics caches of an array and its chunks or dictionary parts are modelled in `StatCache.v` (C54); elsewhere cached statistics
  appear only where the code consults them (C29, C30, the encoders, IsConstant of constant arrays, sortedness in take_rows).
* Data types: list types are absent (the code has no list array at this commit); extension types carry an id and metadata is opaque.
* Array metadata serialisation (flexbuffers per encoding) is a codec record (`acodec`). Finding: StructArray's visitor does not visit
  its validity, so re-serialising a *view* of a nullable struct drops the validity child; `Ipc.v` assumes that all children are visited.
* Floats are bit patterns where only storage, order and equality matter.
* Sizes in bytes and the comparisons of ratios in the sampling compressor are arbitrary functions in `Chooser.v` (C53; how it samples is C46);
  `Compressor.v` (C44) runs an arbitrary plan of choices, and its theorems hold for all plans. ALP, ALP-RD, FSST, DateTimeParts, Delta and Roaring are records outside the `array` type, with their own
  round-trip theorems, and so are not choices in a plan.
* Language bindings (pyvortex), DataFusion's persistent (file) provider, schedules and statistics of its plans, benchmarks, displays and metrics are not modelled.
