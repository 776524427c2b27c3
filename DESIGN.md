# Formal model of google/koladata in Rocq (Coq 8.16.1)

## 1. Method

* The source in `/repo` is read as text. Each area is re-written as small total
  computable Gallina functions that follow the original function branch by
  branch. Every definition cites file and lines. Exceptions are values.
* Four file kinds per area, all in `rocq/theories/`:
  `XModel.v` (the model, no proofs), `XSpec.v` (an independent specification),
  `XProofs.v` (lemmas), `XProps.v` (the property theorems, examples
  `Cxx_hypotheses_met` that meet their hypotheses, `Print Assumptions`).
* Concurrency is modelled by interleaving of atomic steps, where a step is one
  critical section / one atomic instruction / one file-system call of the code.
  Theorems quantify over every list of steps.
* A property that is false of the faithful model is kept as a `_refuted`
  theorem with a computed witness, next to the strongest true variant.

## 2. Trusted base

* Coq's kernel (8.16.1), checked again by `coqchk` in the gate.
* Axioms: none intended. `Print Assumptions` is run under every property
  theorem; the expected answer is "Closed under the global context". Any
  standard library axiom that shows up is listed in section 6.
* The reading of the C++/Python text (the model's fidelity). The tests of
  section 5 (`seeded/LOG.jsonl`) measure the theorems, not the reading.
* Everything listed as not modelled in section 4.

## 3. Plan per property

| id | model | proof |
|----|-------|-------|
| C01 | `Base62Model`: `Base62Repr` with the modular-inverse division on N mod 2^128, `DecodeBase62` | exactness of the inverse division, positional numeral round trip |
| C02, C03 | `ObjectIdModel`: the two 64-bit words, bit fields, allocation view, metadata flags | bit arithmetic on N |
| C04 | `ObjectIdModel`: per-size counters, per-thread reserved ranges, steps of any thread | invariant over all step lists: reserved ranges disjoint |
| C05 | `AllocSetModel`: sorted buffer + hash-set representation | refinement to finite sets |
| C06, C07 | `LruModel`: ordered dict + byte total | invariant and refinement to a most-recently-used list specification |
| C08, C09 | `SchemaModel`: adjacency, Floyd-Warshall, join table, bit-mask aggregator, schema aggregator | finite lattice facts by computation, lifted to all sequences by induction |
| C10, C11 | `DataListModel` | refinement to `list (option value)`; slice arithmetic on Z |
| C12, C13 | `DictModel`, `BagModel` | layered map refinement; heap of shared layers |
| C14 | `SourceModel` | refinement of sparse/dense collections to partial maps |
| C15, C16 | `BagModel`: heap of implementations with parents, lazily re-forked handles | invariant "an implementation with children is never written" |
| C17–C20 | `MergeModel` over bag contents | pointwise specification |
| C21, C22, C25 | `StoreModel` | closure and order lemmas, invariant over histories |
| C23, C24 | `StoreModel`: directory as map from names to contents, steps = file operations | all prefixes / all interleavings |
| C26, C27 | `PathModel`, `PathCodecModel`: printer, parser, UTF-8/base64, generator of paths, view navigation | the parser is equivalent to the documented grammar; induction over rounds of the generator |
| C28 | `GraphModel`: node names, analysis by work list, closures, `SchemaHelper` queries | invariant of the work list; soundness, completeness, termination |
| C29, C30 | `SliceManagerModel` | invariant over histories |
| C31–C34 | `StreamModel`, `ChainModel`, `MapModel`, `FutureModel` | invariants over all interleavings |
| C35–C39 | `JsonModel`, `SalvageModel` | every processor as a byte automaton; grammar of JSON as an inductive predicate |
| C43 | `AsyncModel` | invariant by phases, measure |
| C40–C42 | `ViewModel` | structural induction on nested views |
| C44 | `ExtractModel`: the queue of slices, the marks of visited ids, reads and writes of whole allocations | reachability as an inductive predicate; invariant of the queue; a measure on any bag |
| C45 | `S11nModel`: `FillItemProto`, `EncodeDataSliceImpl` with its parts, `DecodeDataSliceCompactProto` with its cursor over the parts, the older vector format | the format as a relation between message and slots; decoder = relation (both ways); the encoder's message is in the relation |
| C46 | `BagCodecModel`: `CreateIndex`, `ExtractContent`, `EncodeDataBag`, `DecodeDataBagValue`, the schema writes of the decoder | the message `describes` the bag's content (encoder); the decoder's writes are fresh and well-formed and fold to a described content; state-level induction over the fallbacks |
| C47 | `SliceModel`: `SliceBuilder` with its lazily created storages, `TypesBuffer`, `Build`, `RemoveEmptyTypes`, the readers of `DataSliceImpl` | invariant over all histories of the builder that ties each position to the first thing said about it; the built slice refines it for every order of the map of storages |
| C48 | `SliceOpsModel`: `HasOp`, `PresenceAndOp`, `PresenceOrOp`, `CoalesceWithFilteredOp`, `AtOp`, `ExpandOp`, `CollapseOp`, `SelectOp`, `InverseSelectOp`, `ReverseOp` on the slices and the builder of C47 | each operator refines an operation on lists of items (on nested lists for select); the results are well-formed and know the allocations of their objects |
| C49 | `SubsliceModel`: `Align`, `BroadcastToShape`, `Subslice` with its fast path, the arguments of `kd.subslice`, `kd.take`, `kd.expand_to` on targets with missing items, on the operators of C48 | positions chosen with split points are related, argument by argument, to slices of nested lists; the result is that of indexing and slicing the nested lists |
| C50 | `SignatureModel`: `Signature::Create` and `BindArguments` loop by loop | each loop is characterised position by position; together they are equivalent to Python's rules for parameters and arguments |
| C51 | `FunctorModel`: `CreateFunctor`, the depth-first walk over the variables with its stack, inlining and evaluation of a call, the cache of preprocessed functors | invariant of the walk (stack, states, what was seen) and a measure for its end; inlined expressions are related to the equations that define the outcomes of the variables; the cache by a simulation over all histories |
| C52 | `GroupModel`: `GroupByIndicesProcessor` (group ids per key, renumbering when sorting, the counting sort of the result), `GroupByIndices`, `Unique` | invariant of the hash map along a row; induction over keys (equal ids iff equal keys); counting sort lists the positions of each id; composed into a statement about positions only |
| C53 | `DeepCompareModel`: `DeepComparator` with `EquivalentComparator`, `DeepDiff`, the transitions of `TraverseHelper`, `ObjectFinder`, `DeepEquivalentMismatches` | order of keys is total and merging sorted keys pairs equal ones; invariant of the comparison loop (every token that is not pending has edges for all its fields); invariant of the search; measures for both loops; composed with bisimulation as the specification |
| C54 | `AutoVarModel`: `AutoVariables`, `ExtractAutoVariables`, `SharedNodeTracker` | relation between an old and a new expression under a ghost list of all variables ever made, kept by every step of the transformation; induction on it shows that both have the same value and use the same inputs; composed with the semantics of functors of C51 |
| C55 | `BindModel`: `CreateBind` and Python's `bind`, on the functors of C51 | the functor's variables are determined by `CreateFunctor` (C51); evaluation of its expression with the laws of the tuple operators; for bound expressions first the functor that computes them, then the one that uses it |
| C56 | `TranslateModel`: `Translate` with the dicts it makes, on the shapes of C48/C49, `Unique` of C52 and the dicts of C12 | each dict has the keys of one group (the group numbers, stretched to the keys, select its part of the batch); `Unique` keeps all present keys iff no group has one twice (counting); lookups in dicts without repeated keys |
| C57 | `TrampolineModel`: `TrampolineExecutor` with its stack and buffer, callbacks of any type | a big-step recursive program; the stack is the list of what is left to call, in reverse; one round of the loop is one step of the recursion over that list |
| C58 | `ForModel`: `stream_for.cc` with `Vars`, the routine of `basic_routine.cc` and the writer, as steps of threads in any order | the specification is a loop over the list of items; invariant: for every future of the input, what the loop writes is what is written and what the place in the routine still has to write, or the output is orphaned; a measure for progress |
| C59 | `ReduceModel`: `stream_reduce.cc` with the routine and the writer, as steps of threads in any order | the specification is the fold of the functor over the list of items; invariant: the fold over all items is the fold from the value of the routine over those not yet read; a measure bounds the steps |
| C60 | `WhileModel`: `stream_while.cc` with `Vars`, the routine and the writer, as steps of threads in any order | the specification is a while loop bounded by n calls of the body, for every large n; the loop is simulated by a loop over a stream (C58) that gets an item whenever it asks for one, so that its invariant carries over; a measure bounds the steps if the loop ends |
| C61 | `AdoptModel`: `AdoptionQueue` (`Add`, `AdoptInto`, `GetCommonOrMergedDb`, `GetBagWithFallbacks`) and `WithAdoptedValues` of `adoption_utils` | the specification is the union of the parts, defined if no two parts disagree; adopting is a sequence of merges, each of which is a union by induction over the entries; the order of calls follows, since the specification speaks of sets |
| C62 | `StackModel`: `stream_reduce_stack_or_concat.cc` with the routine and the writer, as steps of threads in any order | as C59: an invariant says that what is collected and what is still to be read are together the slices of the input; the specification joins all slices at once |
| C63 | `VisitModel`: `_FunctorVisitor` of `visitor.py` on a graph of functors that may be shared or recursive | the specification is an inductive predicate for values; an invariant of the visited functors (their order, their values) and of the stack; fuel is enough since the stack has no repetitions |

## 4. Modelled / not modelled, and what the model shows about the code

Each area lists what is outside of the model and the findings that came out of
it. Where a property as written is false of the code, a theorem `..._refuted`
holds the witness.

### Object ids (C01-C05)
* Modelled: `Base62Repr`/`DecodeBase62` with their 128-bit arithmetic, the bit
  layout of `ObjectId`, `AllocationId`, uuid and nofollow ids, allocation
  counters with per-thread reserved ranges, `AllocationIdSet`.
* Not modelled: the fingerprint function (an arbitrary function), the 128-bit
  compiler intrinsics (exact arithmetic modulo 2^128).
* Findings: the decoder accepts some texts that no id prints as
  (`C01_..._refuted`); allocations of more than 2^63 objects would collide
  (`C04_..._refuted`), which the API refuses earlier.

### Size tracking cache (C06, C07)
* Findings: a negative size breaks the byte budget (`C06_..._refuted`).

### Schemas (C08, C09)
* Modelled: the dtype lattice, the pairwise and the aggregated common schema,
  implicit castability, with the error cases. Struct schemas are known by id.

### Lists and dicts (C10-C13)
* Modelled: `DataList` with typed and mixed representations, slices, layers of
  lists and dicts over parents.
* Findings: `lst[3:1] = []` violates a DCHECK of `InsertMissing` (a crash in
  debug builds, a no-op in release builds). Removed or cleared dict keys stay
  listed in the layer (intended).
* Simplification: a pointer to the parent's list is followed at read time.

### Bags (C14-C20)
* Modelled: sparse and dense sources with their type buffers, collections of
  sources over parents, forks, freezing, fallbacks, merging with its three
  policies, merging of fallbacks, overwriting updates.
* Not modelled: `GetMaybeFullAllocAttrWithRemoved`, `InternalSetUnitAttr`; keys, values and sizes of dicts over several fallback
  bags (data_bag.cc:2228-2355); pointer identity of const sources shared
  between layers.
* Findings, all of them unreachable through the public API or tolerated:
  1. `MergeSmallAllocInplace` with overwrite into an own descendant loses an
     update at the level of the implementation class.
  2. A DCHECK in `MergeBigAllocImpl` (line 3533) fails in debug builds if the
     top collection of the other bag is sparse above a dense one.
  3. Explicit schemas in big allocations follow the data policy.
  4. A bulk `SetAttr` with repeated objects and a slice of mixed types on a
     dense source with several types: the winner depends on the order of types
     (`C14_mixed_batch_with_repetition_refuted`).
  5. NaN of float32 against NaN of float64 is a conflict on the dense path only.
  6. A merge that fails with a conflict leaves the bag partially merged.
  7. Under the raise policy the value kept for equal but not identical values
     (0.0 and -0.0) depends on the storage: the other bag's one if this bag has
     only sparse sources and the other has dense ones.
  8. `CreateObjectsFromFields` with a mixed slice leaves missing elements unset
     where `SetAttr` writes removed values; sparse and dense sources differ in
     how `SetUnitAndUpdateMissingObjects` treats a removed entry.
  9. `SetAttrFullAlloc` does nothing if all values are removed ones, because such
     a slice is also "empty and unknown" (data_bag.cc:1160-1163), against its
     declaration (data_bag.h:306-309; `C14_full_write_removes_refuted`). It is
     reachable: `s.a = None` for a slice that covers an allocation keeps the old
     values (data_slice.cc:1740-1745), and decoding loses removed values that
     cover a whole allocation (decoder.cc:602-605).
  9. Ids with an offset beyond the allocation read out of bounds in dense
     sources (a documented precondition, dense_source.h:45-48).

### Bag managers (C21-C25)
* Modelled: all methods of `DataBagManager` as steps of threads in processes,
  one step per interaction with the file system, worker threads for reading and
  writing bags, the shared cache, crashes of processes at any step, failing
  file operations, two kinds of rename (atomic, and check-then-rename).
* Simplifications: the bytes of a file; paths are pairs of directory and name;
  the cache key is the pair of bag name and path; reading a bag and storing it
  in the cache is one step; files that no manager wrote and deletions by the
  user are out of scope; an operation that raises has no effect.
* Findings: on a file system whose rename is check-then-rename (the default
  implementation, file_io/fs_implementation.py:45-55) a commit can be lost
  (`C24_check_then_rename_refuted`; a comment in the code admits it). A crash
  in `create_new` leaves a directory that neither `create_new` nor
  `create_from_dir` accepts. `extract_bags` drops custom metadata and is not
  atomic: a crash leaves a valid empty manager. Metadata numbers from 10^12 on
  are not found any more. A branch stores the directory of its origin as given,
  so relative directories break it.

### Data slice paths (C26, C27)
* Modelled: actions, printing, parsing with all its errors, concatenation,
  evaluation, validity for a schema, the generator, navigation of views.
* Parameters: which non-ASCII code points occur in identifiers, and the data
  that actions are evaluated on. absl's base64 functions are modelled after
  their documentation (`PathCodecModel`).
* Not modelled: error messages; reserved attributes of schemas.

### Schema graphs (C28)
* Modelled: `schema_helper.py` without metadata: node names, the breadth-first
  analysis, the closures, all queries of `SchemaHelper`.
* Parameters: the order in which Python sets hand out elements (`pop_ok`), the
  identifier test and codec of paths (as for C26).
* Assumed (`graph_ok`): item id texts are alphanumeric (they print as base-62)
  and the attribute names can be encoded.
* Not modelled: schema metadata, reserved attributes of schemas.

### Data slice managers (C29, C30)
Modelled (`SliceManagerModel`): creation with bare root data, opening at a revision,
read-only copies, the schema of a revision, the index from schema node names to data
bags, loading (needed node names, their bags in order, the facts of the schema that are
given out), updates (the stub with the new attribute, the traversal that splits it into
one small bag per schema node and field, merging of bags that have the same set of node
names, the writes to data, schema and index bags and to the metadata), branches,
revision histories.
The specification (`SliceManagerSpec`) knows neither bags nor indexes: a state is a schema
and data, `after` says what an update does to it, `history` says what can happen.
Not modelled: other kinds of initial data, names and metadata of schemas, descriptions and
timestamps, OBJECT and SCHEMA (refused by the code as well), updates whose argument is not
extracted, actions of a conflicting writer in the middle of an update (cutting off covers
the outcome: the metadata file exists already, ConcurrentUpdate).
A manager stays in the list of the history after it was updated, as if it had been copied
before; this allows more histories than the code.
If the data below the new value says something else about the updated attribute of a
target, then the model lets the new value win.

Findings:
- An update that gives an attribute a new schema for some of the entities that have it
  leaves values of the old schema behind. They are shown or not, depending on which other
  paths are loaded (`C29_partial_loads_agree_without_restriction_refuted`). So the
  histories of C29 and C30 are restricted to updates that write the attribute for all
  entities that have it (`replacing`).
- The documentation of get_data_slice (data_slice_manager.py:484-492) promises that
  `get_data_slice({p1}).updated(get_data_slice({p2}).get_bag())` is equivalent to
  `get_data_slice({p1, p2})`. After an attribute got a new schema this can bring back an
  outdated value (`C29_loaded_slices_combine_after_new_schemas_refuted`).
  `C29_loaded_slices_combine` proves the promise for histories without such updates.
- Entries of a dict are never removed by updates: a dict with the same item id is merged
  with the entries that are there.

### Streams (C31)

`StreamModel` follows `stream.cc`: a stream is a list of chunks whose slots are filled from the front, with a default
capacity computed from the size of the values, and a reader holds an index of the next chunk, its current chunk, an
offset and the size it knows of. A writer first flags itself as closed and then closes the stream (two steps, so that
other threads can write in between, as in the code). The stream can expire (no owner and no reader), after which writers
have no effect. Every locked section is one step; a step returns the callbacks that the code runs after unlocking.
`StreamSpec` has the abstract stream (a log and a position per reader) and observers over traces (what was written, what
a reader read, how often a callback was subscribed and run). Slots that were never written are `None`; reading one is
the result `Garbage`, which C31_read_result excludes.
Not modelled: the run-time type check of values.

### Chains and interleaves (C32)

`ChainModel` and `InterleaveModel` follow `stream_composition.cc` on top of the abstract streams of C31 (a log, a status
and a reader position). In `ChainModel` a thread is a program point of `ProcessPendingInputs`/`ProcessInput`; the model
allows any number of threads and the invariant shows that there is at most one, so that the `CHECK`s and the `Write`
after unlocking are safe. In `InterleaveModel` the place of a reader is kept with its input, because the reader is a
unique pointer that is moved through `ProcessInput` and its callback. The output items of the interleave carry a ghost tag
with their source, so that "keeps each input's order" can be said. `ChainSpec`/`InterleaveSpec` compute from the trace
what the inputs hold (`streams`, `ihappened`) and what a chain has to deliver (`chained`).
Not modelled: a chain whose output stream is dropped (all its writes and closes are then without effect).

### Mapping over a stream (C33)

`MapModel` and `UnorderedModel` follow `stream_map.cc`. A step is one call of a reader, a writer or the functor, or one
test of an atomic; `PushItem` of the ordered sink holds its mutex from step to step, so that a cancellation can close the
output between two of its writes. The functor is an arbitrary function of offset and item (it is called at most once per
offset, so this is no restriction; a value of the wrong type counts as an error). The executor may drop tasks. The output
of the unordered map carries a ghost tag with the offset. `MapSpec.mapped` says what a map has to deliver.
Simplifications: offsets are unbounded (the code uses the maximal `size_t` for "no end yet"); the thread that closes the
output is apart from the one that decided to close it, so that the model has more interleavings than the code.

### Futures and asynchronous evaluation (C34, C43)

`FutureModel` follows `future.cc`: a step is one locked section or one call of a consumer (made after unlocking), of any
thread. Writers are move-only objects. `AsyncModel` follows `async_eval.cc`: the countdown, the threads between two of its
locked sections, the executor's task.
Finding: `FutureWriter& operator=(FutureWriter&&) = default` (future.h:126) drops the old pointer without setting an
error, so a future whose writer is overwritten never gets a value and its consumers never run, against the comment at
the destructor (C34_overwritten_writer_refuted). No code in the repository assigns over a writer that is still in use.
Not modelled: futures whose values are futures (FATAL in async_eval.cc:70-75), cancellation contexts.

### kv views (C40-C42)
* Modelled: `map_structures` of `clib.cc`, and of `view.py`: `explode`,
  `implode`, `flatten`, `expand_to`, `align`, `map` with and without `ndim`,
  `select`, `inverse_select`, `&`, `|`, `group_by`, `collapse`. Python lists
  are addresses in a heap, since `flatten` works by appending to fresh lists.
* Not modelled: argument checks by type, keyword names (they only label
  arguments), attribute access, printing, exceptions from `==`, `<` and
  `hash` other than "unhashable". Equality of keys is Python's dict lookup
  (identity or `==`), assumed to be an equivalence.
* Observation: `flatten` with equal bounds adds a dimension of size one
  (`C41_flatten_nothing_example`), and a single-dimension range is returned
  as the same view.

### Extraction (C44)
* Modelled: `CopyingProcessor` of `extract.cc` as `kd.extract` uses it
  (schemas from the bag of the data, no bound on the depth, no casting, no
  leaf callback), and of `data_bag.cc` the reads and writes it makes, with
  sparse and dense sources, fallbacks, and the shortcut for whole allocations
  (`GetMaybeFullAllocAttrWithRemoved`, `SetAttrFullAlloc`).
  `ExtractSpec.reach` says what can be reached, `extracted` what the new bag
  has to hold, `read` what a user reads along a path.
* `well_formed` collects the hypotheses: data agrees with the schemas, each
  item has one schema, objects have a schema that is followed and declares
  their attributes, the schemas of one big allocation agree on the types of
  the attributes they share. `ExtractCheck` decides it for an example.
  Termination needs no hypothesis.
* Findings (each a `C44_..._refuted`):
  the flag for whole allocations outlives the attribute it was computed for
  (`extract.cc:628`, `925`), and the calls for one of several types pass it
  with a part of the objects, against the contract of `data_bag.h:207`: a
  slice of objects whose schemas give an attribute different types fails to
  be extracted although each object can be;
  an item reached with two schemas is extracted with the first only;
  an object without a schema to follow is extracted with its data when
  another object of the slice has one (`extract.cc:951-1007`);
  marks of removed attributes are kept for single items and lost for whole
  allocations without a value.
* Not modelled: `max_depth`, `schema_databag`, casting callbacks, the shallow
  and deep clones built on the same class, order of dict keys.
* By reading only: `shallow_clone` writes whole allocations of new ids with a
  flag computed from the old ids, which matters if new ids are given by the
  caller in another order.

### Serialized items and slices (C45)

* Modelled: koladata/s11n/encoder.cc `FillItemProto`, `AddSliceElementToProto`,
  `EncodeDataSliceImpl` (types buffer, differences of ids, size estimation and extra
  parts); decoder.cc `DecodeDataItemProto`, `DecodeDataItemValue`,
  `DecodeDataItemVectorProto`, `DecodeDataSliceCompactProto` (`process_type` with its
  cursor, the check for unused values); `SliceBuilder::InsertIfNotSet`; `DType::FromId`.
* The soft limit of a part (2^23 bytes) is a parameter: the theorem holds for each.
* Not modelled: the wire format of protocol buffers, arolla's numbering of values
  (input values are given in order), JaggedShape, the codecs of other types
  (non-deterministic tokens, iterables, functions), floats beyond their bits.
  `SliceBuilder::Build` is modelled by the slots of the builder.
* `wf_slice` lists the invariants of DataSliceImpl: arrays of one size and of
  distinct types, with at most one value at a position.
* A slice without a types buffer does not tell removed values from values that were
  never set; it is written with `kRemoved`, and `holds` reads it that way.
* Findings: values of a type that does not occur are only rejected in the first
  message, not in the extra parts (`C45_unused_values_are_rejected_refuted`). A dtype
  number is converted to int8_t before it is checked, so that 259 decodes as FLOAT64
  (`C45_unknown_dtypes_are_rejected_refuted`).

### Serialized bags (C46)

* Modelled: data_bag.cc `CreateIndex`, `ExtractContent`, `ExtractAttrContent`,
  `ExtractSmallAllocAttrContent`, `ListVectorToContent`, `AddDictToContent`,
  `SetSchemaAttr` of one and of many, `SetAttrFullAlloc`; encoder.cc `EncodeAttribute`,
  `EncodeLists`, `EncodeDict`, `EncodeDataBag`; decoder.cc `DecodeAttrProto`,
  `DecodeListProto`, `DecodeDictProto`, `DecodeDataBagValue`; `SliceBuilder::Build`
  with its types buffer.
* Reuses the bags of C13-C20: the theorem is about any histories of their operations
  and about the same lookups.
* Conditions (`BagCodecSpec.storable`): schemas are as the schema operations make them
  (the low-level operations of the history could write anything into the dict of a
  schema); where an attribute of an array of objects has removed values, some object of
  the array has a value. `schemas_full`: all ids of an allocation of schemas count as
  existing, that is, no array shorter than the allocation is written for schemas.
* Not modelled: the wire format, arolla's table of values and `bag_id` (a fallback that
  occurs twice is written twice), items and slices (C45), `DecodeDataSliceValue` for
  slices with bags.
* Findings: an array of an attribute in which all values were removed has no values
  array, and `SetAttrFullAlloc` ignores it when it is loaded, so that values of
  fallbacks that were hidden are seen again (`C46_removed_values_refuted`). A schema
  whose metadata was removed cannot be loaded, since the decoder writes through
  `SetSchemaAttr`, which wants an object (`C46_removed_metadata_refuted`).
* Seen while reading, outside of the theorem: `DecodeDataBagValue` reads
  `input_values[i]` for each fallback without comparing to their number;
  `DecodeDictProto` reads `values[i]` for the keys of a small schema, and `SetInDict`
  for keys of mixed types, without comparing the sizes; the result of one
  `ParseFromString` in decoder.cc is ignored.

### Building slices (C47)

* Modelled: slice_builder.{h,cc} (`ChangeCurrentType`, `GetBufferBuilder`, `Insert`,
  `InsertIfNotSet`, the variants that update the allocations, `TypedBuilder`,
  `InsertIfNotSet` of an array, `ApplyMask`, `UpdateTypesBuffer`, `IsFinalized`,
  `Build`, `BuildDataSliceVariant`, `RemoveEmptyTypes`); types_buffer.h `ToBitmap`;
  data_slice.cc `operator[]`, `present_count`, `AsDataItemDenseArray`, `IsPresent`.
* Memory that was not written is a value of the model (`None` in a buffer), so that
  reading it would falsify `C47_readers_agree`. A reference to the builder of a type
  that is no longer current, an index outside of the buffers, and a null pointer are
  failures of the model; `C47_slice_holds_what_was_inserted` says that none occurs.
* The order in which `flat_hash_map` visits the storages is any permutation.
* Not modelled: the packing of bits into words, the dispatch of variants, sharing of
  memory between buffers (buffers are immutable once built).
* Seen while reading: `RemoveEmptyTypes` compares with `<=` the number of types (the
  index one past the end would be read); the proof shows that this index never occurs.

### Operators on slices (C48)

* Modelled: koladata/internal/op_utils/{has, presence_and, presence_or,
  coalesce_with_filtered, at, expand, collapse, select, inverse_select, reverse} for
  slices, with their overloads for items where they differ; `DataSliceImpl::Create` of
  one array, of items and of a constant. The path for slices of one type, mixed slices
  and empty slices are kept apart as in the code.
* The operators of arolla on dense arrays (presence, `at`, expand, collapse, edges and
  jagged shapes) are modelled by what they are documented to return; an edge is the list
  of the sizes of its groups. Equality of values in collapse is any relation, so that
  values that are not equal to themselves (NaN) are covered.
* The specification of select is on nested lists: the elements of the last dimension of
  the filter at which it is missing are removed, with everything below them.
* Finding: `ReverseOp` (reverse.cc:38) makes its builder without the allocation ids of
  the slice. The reversed slice has none, so that `GetAttrImpl`, which looks at the
  sources of the allocations that the slice names, finds no attributes
  (`C48_reverse_keeps_allocations_refuted`); no test reverses entities with attributes.
* Not modelled: slices of rank above that of the edge types of arolla (mapping edges),
  schemas of the results, which the operators on DataSlices derive from C08's common
  schema.

### Slicing (C49)

* Modelled: koladata/subslice_utils.cc (both kinds of arguments, the loop over the
  positions with its split points, the fast path for flat slices), koladata/shape_utils.cc
  `GetCommonShape` and `Align`, `BroadcastToShape`, and of koladata/operators/slices.cc the
  handling of the ellipsis, `Take` and `ExpandToPresent`.
* The specification takes the last dimensions as nested lists (`forest`) and applies one
  argument after the other as Python does: `t[i]` and `t[a:b]`, with missing lists and
  missing bounds. Both sides fail with the same error.
* An index is a shape, its items and whether its schema can be cast to INT64; the cast
  itself is that integers stay and other values are refused. All indices are in the range
  of int64, where the additions in the code cannot overflow.
* Not modelled: the schema and the bag of the result, and the messages of errors.

### Calls of functors: arguments (C50)

* Modelled: koladata/signature.cc `Signature::Create` with the index of the parameters that
  can be passed by keyword, koladata/functor/signature_utils.cc `BindArguments` with its
  four loops. Values are arbitrary; a default value is its rank and the value.
* The specification is Python's: the order of the kinds of parameters, which defaults are
  allowed, and for each parameter the one way it gets its value. The theorems are
  equivalences; a refused call is refused by Python, and the error names a reason that holds.
* `arolla::MakeNamedTuple` refuses a repeated field name (it is not part of the repository).

### Functors: creation, calls and the cache (C51)

* Modelled: koladata/functor/functor.cc `CreateFunctor` with `ForEachReachableVariable` frame
  by frame, default_signature.cc, auto_variables.cc `InlineAllVariables`, call.cc
  `CallFunctorWithCompilationCache`, the checks of inputs in expr/expr_eval.cc, the cache of
  data_bag.h with what can be done to bags between calls.
* Left out: the evaluation of operators (an arbitrary function of the outcomes of the
  arguments, so also lazy operators), sharing of equal subexpressions, the compilation
  cache of arolla, merging the bags of the variables.
* The specification gives each variable the outcome that its expression has when V.x stands
  for the outcome of x. `with_bag` must do what its name says: this is a hypothesis.
* Findings: V.__signature__ is reported as undefined although the comment in
  functor.cc:179-181 says that "__signature__" is among the defined names (`CreateFunctorImpl`
  adds it to its own copy). An expression with I.__bag makes the default signature have a
  parameter that every call then passes twice, so that every call is refused.

### Grouping and duplicates (C52)

`GroupModel` has the two operators of `koladata/operators/slices.cc` that reorganise the last
dimension by value. Group ids are processed row by row as in `ProcessArray`: one hash map per
row (a list searched from the newest entry), ids that go on over rows, and for sorting the
renumbering by a sorted index. `CreateFinalDataSlice` is modelled with its arrays: counts per
id, the range of ids of a row, the prefix sums that turn counts into starting positions and the
placement of the indices. An index that would not be written stays missing in the model, so the
theorem that all are present says that the builder is filled. `std::sort` is insertion sort; the
keys that are sorted are pairwise different, so with a total order the result is the only
possible one. Values have an arbitrary partial equality, which covers NaN, and an order that is
total on the values that occur.

`GroupSpec` talks about positions in a row only: which positions have all keys, when two have the
same keys, and when a group comes before another. Shapes are sizes per dimension, as in
`SliceOpsModel`. Not modelled: the hash functions, the allocation ids of the slice returned by
`unique`, the schema and bag of the result, and `GetBoolArgument`.

Findings:

* With `sort=True` and NaN keys, `GroupByIndices` passes `std::sort` a comparator for which NaN is
  incomparable to everything, which is not a strict weak order; the theorem requires an order that
  is total on the keys. Without sorting each NaN is a group of its own.
* `IsNan<DataItem>` asks `std::numeric_limits<DataItem>::has_quiet_NaN`, which is false since
  there is no specialisation, so the branch that calls `item.is_nan()` is never taken. In a mixed
  slice `unique` keeps every NaN, in a slice of floats one (`C52_unique_mixed_nan_refuted`).

### Deep comparison (C53)

`DeepCompareModel` follows `DeepEquivalentMismatches` from the two slices to the list of paths.
A bag is a record of the reads that `TraverseHelper` makes (schema attributes, attributes, list
items, dict keys and values), each an arbitrary function with errors, so that the theorems hold
for bags with fallbacks and for any state of them; `wf_bag` says what those reads guarantee.
`DeepComparator` is modelled with its token map, its stack of pairs and the stable sort and merge
of the transition keys of both sides. The result bag of `DeepDiff` is a list of edges between new
nodes; writing an edge replaces one in the same place, where dict keys that are equal as numbers
share a place. `ObjectFinder` is modelled with its stack of entries that are processed once, the
access path and the set of used items; the order in which a bag lists attributes and keys is an
arbitrary permutation. Errors of reads are passed on; loops have fuel, and `None` means that it
ran out.

`DeepCompareSpec` describes a bag as a graph (`goes`: the field of an item leads to an item with a
schema) and equivalence as the existence of a bisimulation; `differs` and `reaches` give the
differences with their paths. It uses the reads of bags and none of the functions of the
comparison; `readable` in the hypothesis of `C53_succeeds` says that the reads succeed.

Not modelled: the contents of the slices that are shown for a difference (only items and schemas
are recorded), the text of the messages, the check of the `ndim`s in the Python wrapper, and
ObjectIds as small allocations.

Findings:

* A dict with ObjectIds as keys cannot be compared, not even with itself: the keys are stored in
  the result with the schema OBJECT but without a `__schema__`, and `ObjectFinder` fails to read it
  (`C53_object_keys_refuted`).
* `Equal` looks at ITEMID only on the left side, so the comparison is not symmetric
  (`C53_symmetric_refuted`).
* Differences of dict keys are never reported as such, only through the values; of two keys that
  are equal as numbers (INT32 and INT64) on different sides only one of the two reports is kept.

### Automatic variables (C54)

`AutoVarModel` follows `AutoVariables`: the tags of `SharedNodeTracker` in reverse post order, then
`transform_node` for every node in post order with the map of variables, the counters of names and
the set of auxiliary variables as its state, then `CreateFunctor` of `FunctorModel`. Expressions
are trees, and a node of the code's graph is the subexpression that starts at it; the post order
lists every subexpression once. Operators are known by their kind (kd.slice and kd.item, source
location, name, others); literals, `Implode` and kd.explode are arbitrary, with `storable` saying
that a literal can be stored as an attribute and read again. The order of the hash map is an
arbitrary permutation. The tuple of all expressions is taken not to be among the wanted nodes.

`AutoVarSpec` says which functors are meant: valid and with no undefined variables (`valid`,
`closed`), with annotations of the form that Arolla gives them (`located`, `named_well`), with
literals that can be stored. The statement about calls is in the terms of C51. `C54_tidy` and
`C54_names` say that something is extracted at all; they need that the text of an annotation is not
a DataSlice and not itself wanted as a variable (`plain_names`).

Findings:

* A non-simple literal below kd.slice, kd.item or a source location that is named by one part and
  used by another makes `AutoVariables` fail: sharing is recorded for the wrapper, which is removed,
  and not for the literal, so that naming it erases the variable that the other part still uses
  (`C54_succeeds_refuted`: undefined variable `_aux_0`).
* A literal that is an ExprQuote item is "simple", since EXPR is a primitive schema. With a name it
  becomes a variable that is evaluated (`C54_quoted_literal_refuted`).
* With the first of these, an annotation that is named `_aux_0` takes the place of the erased
  variable, and the value of the functor changes (`C54_auxiliary_name_refuted`).

### Partial application (C55)

`BindModel` follows the operator kd.functor.bind (`CreateBind`) and the Python function `bind`, with
`create_functor` of `FunctorModel` in the place of `CreateFunctor`. The operators on tuples and
named tuples and kd.functor.call are arbitrary; the record `computes` in `BindSpec` lists the laws
that they are used with. kd.functor.call is `apply`, and `runs` says that it finds a functor behind an
object, runs it and checks the type. `override` is what functools.partial does with keywords.
Not modelled: merging the bags of the bound values, values that are not DataItems, the type check
of what bound expressions return beyond `has_type`. namedtuple.union is taken to keep the places of
the fields of its first argument.

Findings:

* If one bound value is an expression, the Python function computes the bound values with a functor
  of the default signature, and passes it the arguments of the call. So a call with more than one
  positional argument is refused, even if the functor takes them (`C55_two_positions_refuted`), and
  every keyword argument that a bound expression uses must also be taken by the functor (which is
  documented).
* The operator stores a bound ExprQuote as a variable, so it is evaluated when the functor is called
  and not passed on (`C55_bound_expression_refuted`).
* The Python function cannot bind parameters named `returns`, `signature`
  (`C55_python_names_refuted`), `auto_variables` or `return_type_as`, since they are parameters of the
  functions that it calls or its own.

### Translating keys (C56)

`TranslateModel.v` follows `Translate` in `koladata/operators/slices.cc` with its checks in their
order: values are broadcast, the shapes compared, the keys cast, `Unique` (the model of C52) is asked
for duplicates, a dict for each group is filled and the keys are looked up. The dicts are those of
C12. The batch versions of setting and getting dict items are one loop here; in the code they differ
in how they read the items (one loop for each kind of storage). Casting is arbitrary, except that it
keeps the number of items. Bags are left out.

The specification `translated` says what the value of one key is in terms of positions in two lists.

* Floats (in a slice of objects, too) and expressions are refused as keys although they are distinct
  (`C56_float_keys_refuted`), since dicts do not allow them. The documentation of `kd.translate`
  names only duplicates.
* As Unique counts the NaNs of a mixed slice as different (C52), NaN keys there get as far as the
  dict and are refused with the error for key types.

`TranslateGroupModel.v` is `translate_group` in `slices.py`: `group_by_indices` (C52), `take`,
`collapse`, `index`, `translate` and `subslice`. The last four operators of lists are modelled for the
arguments that occur here; `take` and `subslice` in general are those of C49. The specification
`with_key` filters the values of a row by their keys. That the model makes groups and looks up their
numbers, and that this is the same, is the proof: the unique keys of a row are distinct, and a group,
being ascending and closed under equality, is the list of the positions of its key.

### The trampoline (C57)

`TrampolineModel.v` is `trampoline_executor.cc`, which the conversions from and to protocol buffers use
instead of recursion. A callback is an element of any type, and `invoke` says what it does; nothing is
assumed of it, so programs that never end are included (`C57_never_ends`). The specification `recursive`
is the direct recursion as a big-step relation which also lists the calls. Moving callbacks and
destroying those that are not called are not modelled: a callback is a value. `C57_factorial` is the
example in the header, for every number.

### Loops over streams (C58)

`ForModel.v` is `StreamForReturns` and `StreamForYields`. A step is one call of the reader, of the writer or
of a functor; between any two steps items come, the input is closed, the computation is cancelled (in
three steps: the context, the flag of the writer, the close), the output stream is dropped, or the executor
drops the routine. A functor is a function of the variables (and the item); a condition comes to a value at
once or at any later time. The check whether the output is orphaned and the call of the functor after it are
one step, since the functor does not see the output. Closing the output by the routine is one step.
`Vars::Update` looks names up and compares types. That a yielded value is a new one is seen in the code from
its address; here it is a flag that an update sets, since a field of a fresh namedtuple never has the address
of the initial value. Error messages and the lifetime of values are left out. The input streams and readers
are those of C31.

* Finding (`C58_cancelled_value_refuted`): `OnCancel` calls `TryClose`, which first sets the flag of the writer
  and then closes the stream. `Orphaned()` looks at the flag, so a routine that is between two items in that
  moment takes the condition for false, and `OnSuccess` still writes the last variable: the reader gets an
  unfinished value, and then the error of the cancellation. (Readers that look at the status, as
  `future_from_single_value_stream`, get the error. `StreamReduce` returns without writing.) Success is never
  reported for it (`C58_success`), and loops that yield are not affected (`C58_prefix`).

### Reducing a stream (C59)

`ReduceModel.v` is `StreamReduce` with the same threads and steps as the loops of C58. The functor is any
function of the value and the item that may fail. Reading an item and calling the functor are two steps; the
check of the writer and the call after it are one, since the functor does not see the output. Unlike a loop
that returns, a cancelled reduction never writes an unfinished value (`C59_value` has no hypothesis): it
leaves when it sees that it is interrupted. It may write the finished value and fail all the same.

### While loops (C60)

`WhileModel.v` is `StreamWhileReturns` and `StreamWhileYields`, with the simplifications of C58. Variables,
updates and conditions are shared with `ForModel.v` (`stream_loop_internal.cc` is shared in the code). A while
loop need not end: the theorems compare a run of k steps with the loop that may call the body n times, for
every n from k on, and `C60_ends` says that the routine is done in time if the loop ends.

* Finding (`C60_cancelled_value_refuted`): as for loops over streams, a cancelled loop that returns a value may
  write an unfinished value before its output fails.

### The adoption queue (C61)

`AdoptModel.v` is `AdoptionQueue` and `WithAdoptedValues`. A bag is an address with contents, and contents are
entries of keys and values: how attributes, dicts and lists become entries and how `MergeInplace` compares them
is the matter of C18, here it is one step per entry that stops at the first conflict. `Extract` is a parameter:
the theorems assume only that it gives a part of the bag of the slice (C44 is about extraction itself; the two models are not connected by a proof), and
that contents have one value per key. Its errors include those of the cancellation check. Not modelled:
`AdoptStub`, the wording of conflict errors, and adopting into an immutable bag, which `MergeInplace` refuses.

* Finding (not refuting a claim): if adopting fails, the bag stays with what was merged before the conflict.
  `C61_keeps` says that it loses nothing, but it may have gained entries.
* Since a slice whose bag is adopted as a whole is not extracted, errors of its extraction do not show:
  `adoptable` speaks only of the slices that are extracted.

### Stacking and concatenating streams (C62)

`StackModel.v` is `StreamReduceStack` and `StreamReduceConcat`, with the simplifications of C59. The code keeps
pointers to the slices of the input; the model keeps the slices, since items of a stream do not change (C31).
`ConcatOrStack` is a parameter: any function of the mode, ndim and the list of slices. The check that the input
is a stream of slices is left out.

### Visiting functors (C63)

`VisitModel.v` is `visit_functors`. A functor is its item id; the variables of each in their order of evaluation
are a parameter, and so is the callback, any function that may raise. The depth of the recursion is bounded by
fuel, and `C63_ends` shows that more fuel than functors is never used up. The names of variables are distinct, so
that the dict of results is a list in the order of evaluation. Not modelled: `visit_variables` of a single
functor, errors of the order of evaluation (C51 treats it), and Python's own limit of recursion.

### JSON streams (C35-C39)
* Modelled: every processor as a byte automaton, the routine that drives it.
* Findings: `GetArrayNthValue` never resets `emitted_value_` for top-level
  scalars and emits nothing for a negative index; `ExtractValues` leaves
  `is_object_key_` set after `{}`; compacting a text with an unterminated
  string is not idempotent.
* Salvage (C36 is false as stated; `SalvageProps` has the witnesses and the
  part that holds): an empty template string as key or value gives `{""}` and
  `{"a":""null}`; a backslash before a control character gives a raw control
  character; an escaped raw non-ASCII character violates `ensure_ascii`; `]1`
  gives an empty line; a pending lead surrogate is not flushed before raw
  escapes; an incomplete UTF-8 tail is dropped; `{-5:1}` keeps the unquoted key.

## 5. Mutation testing

`seeded/LOG.jsonl` holds one line per seeded bug. A script edits the model in a
scratch copy, rebuilds, and admits each proof that fails so that all the
failing theorems are found; `theorems_failed` lists the property theorems that
rest on a failing proof. Edits that survive are either equivalent (the line
says so) or led to a stronger theorem (`theorems_tightened`).

## 6. Axioms used

Every property theorem is closed under the global context: `Print Assumptions`
at the end of each `*Props.v` lists no axiom. The gate's checker reports seven
parameters of `Coq.ssr.ssrunder` (`Under_rel.*`); they are part of a module of
the standard library that is merely loaded, and no theorem uses them.
