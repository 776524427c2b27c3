{"id": "C01", "title": "ItemId text encoding is lossless", "statement": "kd.encode_itemid turns every 128-bit ItemId into exactly 22 characters taken from 0-9A-Za-z, and decoding that text gives back the same ItemId; hence two different ItemIds never share a text form.", "quantifier": "all 128-bit ids", "why_tests_cant": "2^128 inputs, and the encoder divides by multiplying with a modular inverse, so a bad constant or a carry shows up only on some of them.", "anchors": ["koladata/internal/op_utils/base62.cc:Base62Repr", "koladata/internal/op_utils/base62.cc:DecodeBase62", "koladata/internal/op_utils/itemid.cc:DecodeBase62IntoObjectId", "koladata/internal/object_id.h:ObjectId::ToRawInt128"]}
{"id": "C02", "title": "An ItemId names exactly one position of exactly one allocation", "statement": "For an allocation of any capacity the items at offsets 0..capacity-1 are pairwise different, each one leads back to its own allocation and its own offset, an allocation contains exactly the items it handed out, and two different allocations share no item.", "quantifier": "all allocations with up to 2^40 items and all offsets", "why_tests_cant": "the identifier packs five fields in 128 bits and the split moves with the allocation size; tests only visit a few sizes.", "anchors": ["koladata/internal/object_id.h:ObjectId", "koladata/internal/object_id.h:AllocationId"]}
{"id": "C03", "title": "Schema views of an ItemId are reversible and keep kinds apart", "statement": "nofollow(schema) is a nofollow schema, differs from every ordinary schema, leads back to exactly the schema it was built from and keeps its flags; list, dict, schema and plain entity ids of the same numeric position are never equal.", "quantifier": "all schema ids, all allocation ids and offsets", "why_tests_cant": "the kind is encoded in 6 metadata bits shared between features; every combination matters, not a sample.", "anchors": ["koladata/internal/object_id.h:CreateNoFollowWithMainObject", "koladata/internal/object_id.h:GetOriginalFromNoFollow", "koladata/internal/object_id.h:ObjectId::IsSchema"]}
{"id": "C04", "title": "Freshly allocated ItemIds never collide", "statement": "However allocations of different sizes are interleaved between threads, no ItemId handed out by one allocation request is ever handed out by another one in the same process.", "quantifier": "all sequences of allocation requests by any number of threads, all sizes, up to the point where a counter is exhausted", "why_tests_cant": "collisions depend on interleavings and on sizes rounding to the same power of two; they cannot be enumerated.", "anchors": ["koladata/internal/object_id.cc:Allocate", "koladata/internal/object_id.cc:AllocateSingleObject", "koladata/internal/object_id.h:AllocateSingleList"]}
{"id": "C05", "title": "The set of allocations tracked for a slice behaves like a mathematical set", "statement": "Inserting allocation ids one by one, in bulk or by union yields a collection whose members are exactly the inserted big allocations, without duplicates, together with a correct flag for small ones, whatever the order of the insertions.", "quantifier": "all sequences of insert / bulk insert / union operations", "why_tests_cant": "the structure switches representation by size and keeps a partially sorted buffer; errors need particular sequences.", "anchors": ["koladata/internal/object_id.h:AllocationIdSet"]}
{"id": "C06", "title": "The size-tracking LRU cache never exceeds its budget and never loses count", "statement": "After any sequence of reads, writes, removals, clears and budget changes the reported total equals the sum of the sizes of the entries held, the total is at most the budget, and no key is held twice.", "quantifier": "all operation sequences, all sizes and all budgets", "why_tests_cant": "accounting drift shows only after long mixed histories with replacement, eviction and resizing.", "anchors": ["py/koladata/ext/storage/lru_size_tracking_cache.py:LruSizeTrackingCache"]}
{"id": "C07", "title": "The LRU cache is transparent and evicts strictly least-recently-used first", "statement": "A read returns either nothing or the value the latest write to that key handed back (a write to a key already held keeps and returns the held value); and the entries held are always a most-recently-used prefix: an entry is evicted only if every entry used less recently is evicted too.", "quantifier": "all operation sequences", "why_tests_cant": "recency order is a function of the whole history.", "anchors": ["py/koladata/ext/storage/lru_size_tracking_cache.py:LruSizeTrackingCache", "py/koladata/caching/lru_cache.py"]}
{"id": "C08", "title": "The common schema of a collection does not depend on order, grouping or repetition", "statement": "The common primitive schema of a set of schemas is an upper bound of all of them in the documented promotion order, is below any other upper bound, and is the same for every ordering, grouping and repetition of the inputs; when it does not exist an error is reported for every ordering.", "quantifier": "all finite sequences of primitive schemas", "why_tests_cant": "the aggregation folds a precomputed pairwise table; associativity is not visible from pairs and holds only if the table is a genuine partial join.", "anchors": ["koladata/internal/schema_utils.h:DTypeLattice", "koladata/internal/schema_utils.cc:CommonDTypeAggregator", "koladata/internal/schema_utils.cc:CommonSchemaAggregator"]}
{"id": "C09", "title": "Implicit castability agrees with the common schema", "statement": "A schema can be implicitly cast to another exactly when their common schema is the target; implicit castability is reflexive, transitive and antisymmetric.", "quantifier": "all pairs and triples of schemas", "why_tests_cant": "all combinations including struct, itemid, object and none schemas matter.", "anchors": ["koladata/internal/schema_utils.cc:IsImplicitlyCastableTo"]}
{"id": "C10", "title": "A Koda list behaves like a plain sequence of optional items", "statement": "After any sequence of append, set, insert, extend, replace, remove, resize and clear operations the items read back, by position or in bulk, are those of an ordinary sequence subjected to the same operations, independently of the internal typed representation.", "quantifier": "all operation sequences and all element type mixes", "why_tests_cant": "the list changes representation (all-missing, single type, mixed) as a function of history.", "anchors": ["koladata/internal/data_list.cc:DataList", "koladata/internal/data_list.h:DataListVector"]}
{"id": "C11", "title": "List slicing and slice assignment follow Python's rules", "statement": "Reading list[start:stop] gives exactly the items Python slicing gives, for positive, negative and out-of-range bounds; replacing or deleting a range leaves every item outside the range in place and in order.", "quantifier": "all list lengths, all integer bounds, all replacement lengths", "why_tests_cant": "boundary arithmetic over unbounded integers.", "anchors": ["koladata/internal/data_bag.h:ListRange", "koladata/internal/data_bag.cc:RemoveAndReserveInList", "koladata/internal/data_bag.cc:GetFromLists"]}
{"id": "C12", "title": "A Koda dict layered over its ancestors behaves like one finite map", "statement": "Reading a key gives the value of the latest write to it in the newest layer that ever wrote or cleared it; the keys listed are exactly those ever written in some layer, of the dict or of its fallbacks, each once and next to its value (a key set to missing, or cleared, stays listed with a missing value); size equals their number; asking for keys with a value drops exactly the missing ones; keys on which a derived dict differs from its ancestor are reported as modified.", "quantifier": "all chains of layers, all write/remove/clear histories in each layer, all keys", "why_tests_cant": "correctness depends on the depth of layering and on which layer removed or cleared what.", "anchors": ["koladata/internal/dict.h:Dict", "koladata/internal/dict.cc:Dict::GetKeys"]}
{"id": "C13", "title": "Lists and dicts of a forked bag are isolated from the original", "statement": "Writing to lists or dicts through a fork never changes what the original bag returns, and vice versa, although storage is shared until written.", "quantifier": "all histories of forks and writes", "why_tests_cant": "copy-on-write mistakes need particular sharing patterns.", "anchors": ["koladata/internal/data_list.h:DataListVector", "koladata/internal/dict.h:DictVector", "koladata/data_bag.cc:FallbackFreeFork"]}
{"id": "C14", "title": "Attribute storage is a map from (item, attribute) to value", "statement": "Reading an attribute of an item gives the value last written for exactly that item and attribute; writing changes nothing else; explicit removal and never-written are kept apart; all this independently of the choice between sparse and dense storage.", "quantifier": "all sequences of single and bulk writes, all allocation sizes", "why_tests_cant": "the representation depends on sizes and write order; the choice points are combinatorial.", "anchors": ["koladata/internal/data_bag.cc:SetAttr", "koladata/internal/data_bag.cc:GetAttrImpl", "koladata/internal/sparse_source.cc", "koladata/internal/dense_source.cc"]}
{"id": "C15", "title": "Forking a bag gives an independent copy in constant time", "statement": "After bag.fork() both bags contain the same data, and from then on updates of one are never visible through the other, for any tree of forks and any interleaving of updates.", "quantifier": "all trees of forks and all interleavings of updates", "why_tests_cant": "isolation is achieved by persistent layers and lazy re-forking on the next write; the state space is the set of all histories.", "anchors": ["koladata/data_bag.cc:DataBag::FallbackFreeFork", "koladata/data_bag.cc:DataBag::GetMutableImpl", "koladata/internal/data_bag.cc:PartiallyPersistentFork"]}
{"id": "C16", "title": "A frozen bag never changes", "statement": "Every value readable from a bag that was frozen stays the same whatever is done later to it, its forks, or the bags it was forked from; attempts to modify it are refused.", "quantifier": "all later operation sequences", "why_tests_cant": "needs all future histories.", "anchors": ["koladata/data_bag.cc:DataBag::Freeze", "koladata/data_bag.cc:DataBag::GetMutableImpl"]}
{"id": "C17", "title": "Fallback lookup takes the first bag that says anything", "statement": "With a list of fallback bags, an attribute, dict key or list is answered by the first bag in depth-first order that has a value or an explicit removal for it; later bags cannot override it, and repeating a bag changes nothing.", "quantifier": "all fallback DAGs and all contents", "why_tests_cant": "answers depend on the shape of the fallback graph and on removals.", "anchors": ["koladata/data_bag.cc:VisitFallbacks", "koladata/internal/data_bag.cc:GetAttrImpl"]}
{"id": "C18", "title": "Merging two bags follows the chosen conflict policy pointwise", "statement": "After merge_inplace every location holds: the other bag's entry if only it has one; this bag's if only it has one; if both have one, the other's under overwrite, this one's under keep, and an error is returned under raise exactly if some location has two different entries. The other bag is unchanged.", "quantifier": "all pairs of bags (any layering), all policies", "why_tests_cant": "four storage cases per allocation times layering.", "anchors": ["koladata/internal/data_bag.cc:MergeInplace", "koladata/internal/data_bag.cc:MergeBigAllocImpl", "koladata/internal/data_bag.cc:MergeSmallAllocInplace"]}
{"id": "C19", "title": "Merging fallbacks preserves every answer", "statement": "bag.merge_fallbacks() returns a bag without fallbacks that answers every attribute and dict lookup exactly as the original bag with its fallbacks did, and leaves the original unchanged.", "quantifier": "all fallback DAGs", "why_tests_cant": "equality of two different evaluation strategies on all contents.", "anchors": ["koladata/data_bag.cc:DataBag::MergeFallbacks"]}
{"id": "C20", "title": "An overwriting update applied to the original reproduces the merge", "statement": "The update computed from (original, other) puts every location of the original in the state an overwriting merge would put it in, and changes no location on which they already agree.", "quantifier": "all pairs of bags", "why_tests_cant": "all contents.", "anchors": ["koladata/internal/data_bag.cc:CreateOverwritingMergeUpdate"]}
{"id": "C21", "title": "Loading bags gives exactly the requested bags and all their dependencies", "statement": "load_bags of a DataBagManager returns exactly the requested bags and everything they depend on (with dependents: also all bags depending on them), each with the data that was added under its name, whatever the shared cache holds or evicts and whatever other threads and processes do meanwhile. It only reads, it ends, and it fails only for unknown names or a failing file operation.", "quantifier": "all histories of calls of any number of threads and processes, all interleavings, cache contents, dependency graphs and requests", "why_tests_cant": "needs all DAGs, histories and cache states.", "anchors": ["py/koladata/ext/storage/data_bag_manager.py:DataBagManager.load_bags", "py/koladata/ext/storage/data_bag_manager.py:_get_dependency_closure"]}
{"id": "C22", "title": "Minimal and extracted bags contain exactly the requested bags and their transitive dependencies, in dependency order", "statement": "get_minimal_bag / extract_bags / create_branch use precisely the transitive closure of the requested names, each once, every bag after all of its dependencies.", "quantifier": "all dependency DAGs and request sets", "why_tests_cant": "closure and ordering over arbitrary graphs.", "anchors": ["py/koladata/ext/storage/data_bag_manager.py:_get_dependency_closure", "py/koladata/ext/storage/data_bag_manager.py:extract_bags"]}
{"id": "C23", "title": "A crash while adding bags never corrupts the store", "statement": "If the process stops at any point of add_bags, reopening the directory gives either the state before the call or the state after it, with every listed bag file present and complete.", "quantifier": "all crash points of all add_bags calls, after any history", "why_tests_cant": "every prefix of every write sequence must be considered.", "anchors": ["py/koladata/ext/storage/data_bag_manager.py:add_bags", "py/koladata/ext/storage/data_bag_manager.py:_persist_metadata", "py/koladata/file_io/fs_implementation.py"]}
{"id": "C24", "title": "Two managers on one directory cannot both commit the same version", "statement": "If several writers open the same directory and add bags concurrently, on a file system whose rename without overwrite is one step, at most one of them succeeds for each metadata version and no committed update is lost; the others get an error. (The default file system checks before it renames; there the property is refuted.)", "quantifier": "all interleavings of the file-system steps of any number of writers", "why_tests_cant": "race windows are scheduling dependent.", "anchors": ["py/koladata/ext/storage/data_bag_manager.py:_persist_metadata", "py/koladata/file_io/fs_implementation.py:rename"]}
{"id": "C25", "title": "A branch is independent of its origin", "statement": "After create_branch the branch contains what the origin had, and adding bags to either is never visible through the other.", "quantifier": "all later histories on both sides", "why_tests_cant": "all histories.", "anchors": ["py/koladata/ext/storage/data_bag_manager.py:create_branch", "py/koladata/ext/storage/data_slice_manager.py"]}
{"id": "C26", "title": "Data slice paths survive printing and parsing", "statement": "Parsing the text of any data slice path yields an equal path, for every attribute name including ones with quotes, dots and brackets; every text accepted by the parser denotes exactly one path.", "quantifier": "all paths of any length and all attribute names", "why_tests_cant": "the grammar is unbounded and ambiguous looking (.get_keys() vs an attribute with that name).", "anchors": ["py/koladata/ext/storage/data_slice_path.py:DataSlicePath.to_string", "py/koladata/ext/storage/data_slice_path.py:DataSlicePath.parse_from_string"]}
{"id": "C27", "title": "Data slice path algebra", "statement": "Concatenation of paths is associative with the empty path as unit, and printing, parsing and evaluating a concatenation is printing, parsing and evaluating the parts one after the other; appending to a view's path and then taking the parent gives back the path; two different paths never print alike. The paths generated for a schema are exactly the valid paths up to the given depth, each once, shorter ones first, also for recursive schemas, and the descendants of a view are exactly the valid proper extensions of its path that satisfy the predicate.", "quantifier": "all paths, all schemas (recursive ones included), all depth limits", "why_tests_cant": "unbounded; recursive schemas have infinitely many paths.", "anchors": ["py/koladata/ext/storage/data_slice_path.py:DataSlicePath", "py/koladata/ext/storage/data_slice_path.py:generate_data_slice_paths_for_arbitrary_data_slice_with_schema", "py/koladata/ext/storage/data_slice_manager_view.py:DataSliceManagerView.find_descendants"]}
{"id": "C28", "title": "The schema graph and its closures are exact", "statement": "The schema helper's graph has one node per documented node name of the valid paths of the schema, and two places share a name only if they are the same node; parents, children, leaves, ancestors and descendants are exactly what the paths of the schema say, including for cyclic schemas; the nodes needed to populate paths are the requested ones and everything above them; the search always terminates, whatever order sets hand out their elements; unsupported schemas and unknown names are refused.", "quantifier": "all schemas including recursive ones, all path sets, all orders in which sets are traversed", "why_tests_cant": "arbitrary cyclic graphs.", "anchors": ["py/koladata/ext/storage/schema_helper.py:SchemaHelper"]}
{"id": "C29", "title": "A partially loaded data slice is complete and up to date", "statement": "Loading paths through a data slice manager succeeds exactly if all of them are paths of the manager's revision. The loaded slice then has everything that was asked for, and whatever path can be evaluated on it gives what the revision has there, which is what loading everything gives. As long as no attribute was given a new schema, two loaded slices can be put together with the same guarantee. This holds after any history of updates that write an attribute for all entities that have it whenever they give it a new schema; without this, loads of different paths can disagree (refuted), and after any new schema, putting slices together can bring outdated values although the documentation promises the opposite (refuted).", "quantifier": "all histories of creations, openings, read-only copies, updates, refused updates, updates cut off anywhere and branches; all sets of paths; all orders in which sets are traversed; all supported schemas including recursive ones", "why_tests_cant": "needs all histories and all sets of paths.", "anchors": ["py/koladata/ext/storage/data_slice_manager.py:DataSliceManager.get_data_slice", "py/koladata/ext/storage/data_slice_manager.py:DataSliceManager.get_data_slice_at", "py/koladata/ext/storage/bare_root_initial_data_manager.py:BareRootInitialDataManager"]}
{"id": "C30", "title": "Data slice manager revisions replay the history", "statement": "Every manager of a persistence directory shows exactly the state of its revision, and its revision history is that of the directory up to its revision. Each revision is the one before it with one update applied: the updated attribute and the data that comes with its value have their new values, everything else is unchanged. Every revision can be opened at any time, and branched. An update never changes what other managers show. Only the latest revision can be updated. An update that fails or is cut off at any point changes no revision, and a read-only manager changes nothing.", "quantifier": "all histories, with any number of managers side by side and updates cut off at any point", "why_tests_cant": "needs all histories and all crash points.", "anchors": ["py/koladata/ext/storage/data_slice_manager.py:DataSliceManager.update", "py/koladata/ext/storage/data_slice_manager.py:DataSliceManager.branch", "py/koladata/ext/storage/data_slice_manager.py:DataSliceManager.create_from_dir", "py/koladata/ext/storage/data_slice_manager.py:DataSliceManager.get_revision_history"]}
{"id": "C31", "title": "Every reader of a stream sees exactly what was written, in order", "statement": "Any number of readers, attached at any time, each observe the written items in order without loss or duplication, and then the final status; reading never affects other readers; nothing can be written after close. The first attempt to close decides the status. A subscribed callback runs at most once, when its reader has something to read, and is never forgotten while there is something to read.", "quantifier": "all interleavings of writes, close and reads, all chunk boundaries, all numbers of readers", "why_tests_cant": "chunk boundaries and interleavings.", "anchors": ["koladata/functor/parallel/stream.cc"]}
{"id": "C32", "title": "Chained and interleaved streams lose nothing", "statement": "A stream chain outputs the concatenation of its inputs in the order of adding, up to the first error, which it reports after everything before it; a stream interleave outputs a merge that keeps each input's order and fails only with an error of an input or one that was added; both end successfully exactly when they are given up and all inputs have succeeded and were delivered; no internal check fails and no thread is left waiting for nothing; for every timing of the inputs and threads.", "quantifier": "all interleavings of input progress", "why_tests_cant": "timing.", "anchors": ["koladata/functor/parallel/stream_composition.cc:StreamChain", "koladata/functor/parallel/stream_composition.cc:StreamInterleave"]}
{"id": "C33", "title": "Parallel stream map keeps order; the unordered map keeps the multiset", "statement": "stream_map outputs f applied to each input in input order, up to the first error; stream_map_unordered outputs a permutation of it and ends successfully only if every item was written; for every completion order of the item computations.", "quantifier": "all completion orders, all inputs", "why_tests_cant": "n! orders.", "anchors": ["koladata/functor/parallel/stream_map.cc"]}
{"id": "C34", "title": "A future is set at most once and notifies every waiter exactly once", "statement": "Whatever the order of registering consumers and setting the value, each consumer runs exactly once with the value, and the value never changes; an abandoned future yields a cancellation error.", "quantifier": "all interleavings", "why_tests_cant": "timing.", "anchors": ["koladata/functor/parallel/future.cc"]}
{"id": "C35", "title": "JSON stream operators do not depend on how the input is cut into chunks", "statement": "For each of the JSON stream operators, the concatenated output depends only on the concatenated input: any two ways of cutting the same text, even inside an escape or a multi-byte character, give the same result.", "quantifier": "all inputs and all partitions into chunks", "why_tests_cant": "exponentially many partitions of unboundedly many inputs.", "anchors": ["koladata/internal/op_utils/json_stream.cc"]}
{"id": "C36", "title": "JSON salvage emits only valid JSON", "statement": "For every byte sequence, valid or not, the output of json_stream_salvage is a sequence of newline-separated values each of which is valid JSON.", "quantifier": "all byte strings, all option settings", "why_tests_cant": "arbitrary garbage inputs.", "anchors": ["koladata/internal/op_utils/json_stream.cc:JsonSalvageStreamProcessor"]}
{"id": "C37", "title": "JSON quote and unquote are inverse", "statement": "Unquoting the quotation of any byte string returns the string; the quotation contains no raw control character and exactly two unescaped quote marks.", "quantifier": "all byte strings, all chunkings", "why_tests_cant": "all strings.", "anchors": ["koladata/internal/op_utils/json_stream.cc:JsonQuoteStreamProcessor", "koladata/internal/op_utils/json_stream.cc:JsonUnquoteStreamProcessor"]}
{"id": "C38", "title": "Reformatting JSON changes only insignificant whitespace", "statement": "Compactifying and prettifying leave the sequence of significant characters and all string contents unchanged, compactifying is idempotent, and compactifying a prettified text equals compactifying the original.", "quantifier": "all texts / all well-formed JSON sequences", "why_tests_cant": "unbounded nesting.", "anchors": ["koladata/internal/op_utils/json_stream.cc:JsonPrettifyStreamProcessor", "koladata/internal/op_utils/json_stream.cc:JsonCompactifyStreamProcessor"]}
{"id": "C39", "title": "Line-oriented JSON operators do exactly what their names say", "statement": "head keeps the first n lines; select_nonnull / nonempty_* keep exactly the lines that qualify, unchanged and in order; imploding lines into an array and exploding it gives the lines back; get_array_nth_value gives the n-th element or null.", "quantifier": "all streams of JSON lines, all n", "why_tests_cant": "unbounded inputs.", "anchors": ["koladata/internal/op_utils/json_stream.cc"]}
{"id": "C43", "title": "Asynchronous evaluation gives the operator's value or the first error", "statement": "Evaluating an operator on values and futures yields the operator's value on all inputs once every future has its value, whatever the order in which they arrive; or the first error that arrives; it never crashes, sets its result exactly once, never changes it and always ends; if a part is dropped, the result says so.", "quantifier": "all inputs, all orders of arrival, all schedules of the threads, all operators", "why_tests_cant": "n! orders and thread interleavings.", "anchors": ["koladata/functor/parallel/async_eval.cc:AsyncCountdown", "koladata/functor/parallel/async_eval.cc:AsyncEvalWithCompilationCache"]}
{"id": "C40", "title": "kv views: select and inverse_select are inverse", "statement": "Selecting with a filter keeps exactly the items whose filter is present, in order; inverse_select puts them back to their original positions; both leave the outer shape unchanged.", "quantifier": "all nested views and filters", "why_tests_cant": "unbounded nesting depth.", "anchors": ["py/koladata/ext/view/operators.py", "py/koladata/ext/view/view.py"]}
{"id": "C41", "title": "kv views: explode, implode, flatten and expand laws", "statement": "implode after explode is the identity on lists; flatten over all dimensions gives the depth-first order of items; expand_to repeats each item once per position of the target below it, and aligned maps act pointwise.", "quantifier": "all nested views of all depths", "why_tests_cant": "unbounded.", "anchors": ["py/koladata/ext/view/clib.cc", "py/koladata/ext/view/view.py"]}
{"id": "C42", "title": "kv views: group_by partitions", "statement": "group_by puts every item with non-missing keys in exactly one group, groups have equal keys inside and different keys between each other, order inside a group is kept and groups appear in first-occurrence (or sorted) order.", "quantifier": "all items and keys", "why_tests_cant": "unbounded.", "anchors": ["py/koladata/ext/view/operators.py:group_by"]}
{"id": "C44", "title": "Extraction keeps exactly what can be reached", "statement": "extract() of a slice returns a bag in which every attribute, list, dict and schema that can be reached from the slice by following its schemas reads the same as before, and which holds nothing else; reading along any path of attributes, list positions and dict keys gives the same answer; it ends for every bag, also with cycles.", "quantifier": "all bags with fallbacks, all slices and schemas, all reference graphs including cyclic ones, all allocation sizes", "why_tests_cant": "arbitrary graphs, mixes of storage layouts, grouping of objects by schema allocation.", "anchors": ["koladata/internal/op_utils/extract.cc:CopyingProcessor", "koladata/internal/op_utils/extract.cc:ExtractOp", "koladata/internal/data_bag.cc:GetMaybeFullAllocAttrWithRemoved", "koladata/internal/data_bag.cc:SetAttrFullAlloc", "koladata/extract_utils.cc:Extract"]}
{"id": "C45", "title": "A serialized item or slice decodes to the same item or slice", "statement": "Decoding what dumps wrote for an item or a slice gives the same item or slice: the same size, at each position the same value of the same type, or removed, or never set, and the allocations of exactly its ids; this holds however large the slice is and wherever the message is split into parts. The decoder accepts exactly the messages the format describes, decodes them as described, and never reads outside of the message.", "quantifier": "all items; all slices of any size and mix of types; all sizes at which a message is split; for the decoder, all messages and input values, also malformed ones", "why_tests_cant": "mixes of eleven types, positions of splits (one part holds 8 MB), differences of ids modulo 2^64, arbitrary malformed messages.", "anchors": ["koladata/s11n/encoder.cc:EncodeDataSliceImpl", "koladata/s11n/encoder.cc:FillItemProto", "koladata/s11n/decoder.cc:DecodeDataSliceCompactProto", "koladata/s11n/decoder.cc:DecodeDataItemProto", "koladata/s11n/decoder.cc:DecodeDataItemVectorProto", "koladata/s11n/codec.proto:DataSliceCompactProto"]}
{"id": "C46", "title": "A loaded bag answers every query like the bag that was saved", "statement": "Saving a bag (with its fallbacks) and loading it elsewhere gives a new bag that answers every query for an attribute, a list or a dict key exactly as the original did, including what was removed and what was never set; it can be written to exactly if the original can; and loading changes no bag that was there before. The bags saved must have schemas that are made by the schema operations, and, where attribute values of an array of objects were removed, some value of that attribute must be left in the array.", "quantifier": "all bags after any history of operations, with any nesting of fallbacks; all states in which they are loaded; all orders in which hash maps are iterated and the message is written", "why_tests_cant": "layers of forks and partially filled arrays, removed and unset values, mixed types and interleavings of all operations before saving and before loading are unbounded; the tests save a few small bags.", "anchors": ["koladata/s11n/encoder.cc:EncodeDataBag", "koladata/s11n/decoder.cc:DecodeDataBagValue", "koladata/s11n/decoder.cc:DecodeAttrProto", "koladata/internal/data_bag.cc:ExtractContent", "koladata/internal/data_bag.cc:SetSchemaAttr", "koladata/internal/data_bag.cc:SetAttrFullAlloc"]}
{"id": "C47", "title": "A slice holds what was put into it", "statement": "A slice that is built from items, arrays and typed parts, in any order and any mix of types, holds at each position the first thing that was said about it; a position said to be missing stays apart from one about which nothing was said; the builder knows when all positions are decided; all ways to read the slice agree and none reads memory that was not written; and the slice has exactly the allocations that were given or inserted.", "quantifier": "all sizes, all histories of insertions, masks, arrays and typed views, all mixes of types, all orders of the hash map of types", "why_tests_cant": "interleavings of insertions of eleven types, with masks and arrays, are unbounded; wrong results appear only for particular interleavings (a type that loses all of its positions, a type that comes back).", "anchors": ["koladata/internal/slice_builder.h:SliceBuilder", "koladata/internal/slice_builder.cc:Build", "koladata/internal/slice_builder.cc:RemoveEmptyTypes", "koladata/internal/types_buffer.h:TypesBuffer", "koladata/internal/data_slice.cc:operator[]"]}
{"id": "C48", "title": "Operators on slices return the right items at each position", "statement": "Taking the items where a mask is present, filling missing items from another slice (with or without a check that the slices do not overlap), picking items by positions counted from the start or the end, expanding items to groups, collapsing groups to the item they have in common, removing what a filter excludes at any dimension, putting selected items back and reversing groups return exactly the items that are described by these words, with the right shape and the right error where arguments do not fit; selecting and putting back are inverse to each other; and the result knows the allocations of its objects, which is where their attributes are looked up.", "quantifier": "all slices of any size and mix of types, all masks, indices, groups and shapes of any rank; all orders in which hash maps are visited", "why_tests_cant": "combinations of types, missing items, empty groups and ranks are unbounded, and the code has separate paths for slices of one type, mixed slices and empty slices; the tests check a few small slices for each.", "anchors": ["koladata/internal/op_utils/presence_and.h:PresenceAndOp", "koladata/internal/op_utils/presence_or.h:PresenceOrOp", "koladata/internal/op_utils/at.cc:AtOp", "koladata/internal/op_utils/expand.h:ExpandOp", "koladata/internal/op_utils/collapse.h:CollapseOp", "koladata/internal/op_utils/select.cc:SelectOp", "koladata/internal/op_utils/inverse_select.h:InverseSelectOp", "koladata/internal/op_utils/reverse.cc:ReverseOp", "koladata/internal/op_utils/has.cc:PresenceDenseArray"]}
{"id": "C49", "title": "Slicing a slice is indexing its nested lists", "statement": "x.S[a, b, ...] and kd.subslice return exactly what indexing and slicing the nested lists of x with a, then b, and so on returns: indices and bounds count from the end if they are negative, ranges are cut at the ends of each list, missing indices give missing items, missing bounds give empty ranges, an ellipsis stands for the dimensions that are not given, indices with more dimensions select several times. Arguments are aligned by repeating items for what is below them; shapes of which none starts with all others, indices that are not integers and too many arguments are refused. kd.take and kd.expand_to follow the same rule.", "quantifier": "all slices of any size, rank and mix of types; all lists of arguments, indices and bounds of any rank with any missing items", "why_tests_cant": "the combinations of ranks, ranges, missing indices, empty lists and broadcast arguments are unbounded, and the code works on flat positions and split points with a separate fast path; the tests have some examples of each kind of argument.", "anchors": ["koladata/subslice_utils.cc:Subslice", "koladata/subslice_utils.cc:SubsliceChildIndicesForSingle", "koladata/subslice_utils.cc:SubsliceChildIndicesForRange", "koladata/shape_utils.cc:Align", "koladata/operators/slices.cc:ExtractSlicingArgs", "koladata/operators/slices.cc:Take", "koladata/operators/slices.cc:ExpandToPresent"]}
{"id": "C50", "title": "Arguments are bound to the parameters of a functor as in Python", "statement": "A signature is accepted exactly if Python accepts the parameter list (order of the kinds, at most one variadic parameter of each kind, distinct names, no default after which a positional parameter has none) and defaults are items. A call with positional and keyword arguments succeeds exactly if Python would accept it, and every parameter gets the value it gets in Python: by position, by keyword, its default, or as variadic parameter all that is left over. A call that is refused is one Python refuses and the error names a reason that holds. The order of keyword arguments does not matter.", "quantifier": "all parameter lists, all lists of positional arguments, all lists of keyword arguments including repeated and unknown names", "why_tests_cant": "the combinations of five kinds of parameters, defaults and ways to pass arguments are unbounded; the tests have a few signatures.", "anchors": ["koladata/signature.cc:Signature::Create", "koladata/functor/signature_utils.cc:BindArguments"]}
{"id": "C51", "title": "A functor computes what its variables say, and the cache of functors is invisible", "statement": "A functor can be created exactly if its items are scalars, `returns` is present, the signature is valid (or can be derived from the inputs) and the variables that `returns` depends on are all defined and do not depend on themselves. The variables are visited once each, every one after those it depends on. A call returns the value of `returns` when every V.x stands for the value of the variable x and every I.x for the argument bound to x; an unused variable has no influence. An error names a reason that holds, and a functor that could be created is refused only for its arguments, for inputs missing in an explicit signature, for I.__bag and for failing operators. Caching preprocessed functors never changes the result of a call, whatever is written, forked or frozen between calls.", "quantifier": "all functors with any number of variables and any dependencies, all operators, all arguments, all sequences of bag operations and calls", "why_tests_cant": "dependency graphs and histories of writes, forks and calls are unbounded; a stale cache entry or a wrong order of inlining shows only for particular ones.", "anchors": ["koladata/functor/functor.cc:CreateFunctor", "koladata/functor/functor.cc:ForEachReachableVariable", "koladata/functor/auto_variables.cc:InlineAllVariables", "koladata/functor/call.cc:CallFunctorWithCompilationCache", "koladata/functor/default_signature.cc", "koladata/data_bag.h:GetCachedMetadataOrNull/SetCachedMetadata"]}
{"id": "C52", "title": "Grouping puts exactly the items with equal keys together, and unique keeps each value once", "statement": "group_by over any number of keys returns, for each row of the last dimension, each item that has all keys in exactly one group; two items are in the same group exactly if all their keys are equal; no group is empty and the items of a group keep their order. Groups come in the order of their first items, or with sort=True in the lexicographic order of their keys. The returned shape has the groups and the items of each group as its last two dimensions. unique returns the first occurrences of the values of each row, or with sort=True the same values ascending with NaN last. Both refuse exactly items (group_by), different shapes, and sorting of values that have no order.", "quantifier": "all shapes, any number of keys, all values with any partial equality (NaN differs from itself) and, for sorting, any total order; all rows including empty ones", "why_tests_cant": "group ids, hash maps and the counting sort are shared between rows and keys; a wrong boundary shows only for particular sizes of rows and combinations of missing items, and the number of keys and rows is unbounded.", "anchors": ["koladata/operators/slices.cc:GroupByIndices", "koladata/operators/slices.cc:GroupByIndicesProcessor", "koladata/operators/slices.cc:Unique", "koladata/operators/slices.cc:IsNan"]}
{"id": "C53", "title": "Deep comparison reports nothing exactly for equivalent data, and otherwise the places of the differences", "statement": "kd.testing.assert_equivalent and its list of mismatches compare two slices through all attributes, list items and dict values. Nothing is reported exactly if the slices are equivalent: there is a relation between their items that contains the items of the slices pairwise, relates only items that do not differ in themselves, and is kept along every field of both sides (ObjectIds do not matter unless asked for, missing attributes count as absent unless schemas are compared, with partial only the attributes of the expected side matter). Every reported mismatch is a difference at the end of its path; not more than max_count are reported, and with fewer than max_count every pair of items reachable together that differs in a field is reported for that field. The comparison ends for cyclic data, succeeds if everything reachable can be read and no dict has ObjectIds as keys, and a slice never differs from itself.", "quantifier": "all bags (as functions of what their reads return), all slices, all three comparison options, all max_count, every order of iteration over the result bag, cyclic and shared data", "why_tests_cant": "equivalence of cyclic graphs is a greatest fixed point; sharing, cycles and the merging of sorted keys of both sides give unboundedly many shapes of data, and a missed difference makes a test of a user pass silently.", "anchors": ["koladata/testing/traversing_utils.cc:DeepEquivalentMismatches", "koladata/internal/op_utils/deep_comparator.h:DeepComparator", "koladata/internal/op_utils/deep_equivalent.cc:EquivalentComparator", "koladata/internal/op_utils/deep_diff.cc:DeepDiff", "koladata/internal/op_utils/object_finder.h:ObjectFinder", "koladata/internal/op_utils/traverse_helper.h:TraverseHelper"]}
{"id": "C54", "title": "Automatic variables do not change what a functor computes", "statement": "Turning the named parts, the wanted parts, the shared parts and the slice literals of a functor's expressions into variables of their own (auto variables) gives a functor that returns for all arguments exactly what the given functor returns, with the same signature and with the other attributes unchanged. Afterwards no expression has a name annotation or a literal that is not a simple item, and every annotated name is a variable.", "quantifier": "all functors with any number of variables and expressions of any depth and sharing, all sets of wanted nodes, all operators and arguments, every order of the hash map of variables", "why_tests_cant": "how nodes are shared between named parts, how names collide with variables and generated names, and how literals are renamed gives unboundedly many cases; a wrong sharing decision or a clash of names silently changes a value.", "anchors": ["koladata/functor/auto_variables.cc:AutoVariables", "koladata/functor/auto_variables.cc:ExtractAutoVariables", "koladata/functor/auto_variables.cc:SharedNodeTracker"]}
{"id": "C55", "title": "Partial application of functors behaves like functools.partial", "statement": "A functor made by binding arguments to another one returns for all arguments exactly what the other one returns when it is called with the bound positional arguments before those of the call, and with the bound keyword arguments unless the call passes others. Binding twice is binding all at once, the later keyword values win; a parameter given both by position and by keyword is refused whether it is bound or passed. Bound expressions are evaluated in each call with the keyword arguments of the call as inputs.", "quantifier": "all functors, all numbers of bound positional and keyword values and expressions, all calls with any arguments, all later bindings", "why_tests_cant": "the number of bound and passed arguments, their overlap, the signatures and the names of the generated variables are unbounded; a wrong order or precedence shows only for particular combinations.", "anchors": ["koladata/functor/bind_operator.cc:CreateBind", "koladata/functor/bind_operator.cc:MakeCapturingLambdaExpr", "py/koladata/functor/functor_factories.py:bind"]}
{"id": "C56", "title": "Translating keys looks each key up in its own group", "statement": "Translating a slice of keys by other keys and values returns, for each present key, the value at the position of the equal key in the group of the last dimension that belongs to it (values are first broadcast to the keys, groups to the keys to translate), and nothing for missing keys and for keys that are not in the group. It succeeds exactly if the shapes are compatible, the keys can be cast, no key occurs twice in a group, and the keys are of a type that dicts allow. Translating the keys themselves returns their values. Translating to groups returns for each key the values of all equal keys of its group, in their order, and an empty list if there are none; there keys may be repeated.", "quantifier": "all shapes and ranks, all numbers of groups and keys, all values, missing items anywhere, all orders of the keys", "why_tests_cant": "the groups are jagged and of unbounded number, and a lookup in a wrong group, a duplicate across groups or a shifted value shows only for particular shapes and positions.", "anchors": ["koladata/operators/slices.cc:Translate", "koladata/object_factories.cc:CreateDictShaped", "koladata/data_slice.cc:GetFromDict", "koladata/operators/slices.cc:Unique", "py/koladata/operators/slices.py:translate_group"]}
{"id": "C57", "title": "Recursion through a trampoline is recursion", "statement": "Running a program through the trampoline executor changes the program's state and returns the status exactly as the recursive program that calls the enqueued callbacks directly: an enqueued callback is called exactly once, after the callback that enqueued it has returned and after everything enqueued before it (with all that it enqueues) is done; when a callback fails, its error is returned and nothing else is called; and the executor runs forever only if the recursion does.", "quantifier": "every set of callbacks, every behaviour of each of them (state change, status, callbacks enqueued), every root callback and initial state, terminating or not", "why_tests_cant": "the order of calls depends on the whole tree of enqueued callbacks, whose depth and width are unbounded; tests fix a few small trees", "anchors": ["koladata/internal/op_utils/trampoline_executor.h:TrampolineExecutor::Run", "koladata/internal/op_utils/trampoline_executor.cc:TrampolineExecutor::Enqueue", "koladata/internal/op_utils/trampoline_executor.cc:TrampolineExecutor::FlushBuffer"]}
{"id": "C58", "title": "A loop over a stream does what a loop over a list does", "statement": "A parallel loop over a stream (with a body, an optional condition and an optional finalizer, returning its last variable or yielding values) writes, whatever the timing of the items, of the conditions and of the threads, exactly what the sequential loop over the same items writes, in the same order: at any time a beginning of it, and all of it when the loop has ended or waits for an item that has not come. It succeeds or fails exactly as the sequential loop does, unless it is cancelled or the executor shuts down, and it never stops while there is something to do.", "quantifier": "all functors, initial states and variables, all items and closings of the input at any times, conditions that are ready at once or late, all schedules of the routine, notifications, cancellation in several steps, loss of the output stream and shutdown of the executor, of any length", "why_tests_cant": "the outcome depends on how the arrival of items, late conditions, cancellation and the end of readers interleave with every call of the loop; tests see a few schedules.", "anchors": ["koladata/functor/parallel/stream_for.cc:StreamForHooks", "koladata/functor/parallel/stream_for.cc:StreamForReturnsTraits", "koladata/functor/parallel/stream_for.cc:StreamForYieldsTraits", "koladata/functor/parallel/stream_loop_internal.cc:Vars::Update", "koladata/functor/parallel/basic_routine.cc:StartBasicRoutine", "koladata/functor/parallel/stream.cc:StreamImpl::Writer"]}
{"id": "C59", "title": "Reducing a stream gives the fold over its items", "statement": "Reducing a stream with a functor, whatever the timing of the items and of the threads, writes exactly one value, the left fold of the functor over all items from the initial value, and only after the input was closed with success; it fails exactly if the functor fails or gives a value of another type for some item, or the input fails, with the first such error. Also if it is cancelled at any time it never writes the fold over only some of the items, and never reports success without the value. It never stops while there is something to do.", "quantifier": "all functors, initial values, items and closings of the input at any times, all schedules of the routine, notifications, cancellation in several steps, loss of the output stream and shutdown of the executor, of any length", "why_tests_cant": "the outcome depends on how the arrival of items, cancellation and the end of readers interleave with every call of the routine; tests see a few schedules.", "anchors": ["koladata/functor/parallel/stream_reduce.cc:StreamReduceHooks", "koladata/functor/parallel/stream_reduce.cc:StreamReduce", "koladata/functor/parallel/basic_routine.cc:StartBasicRoutine", "koladata/functor/parallel/stream.cc:StreamImpl::Writer"]}
{"id": "C60", "title": "A parallel while loop does what a while loop does", "statement": "A parallel while loop (returning its last variable or yielding values) writes, whatever the timing of its conditions and of the threads, exactly what the sequential while loop writes, in the same order: at any time a beginning of it, and all of it when it has ended. It succeeds or fails exactly as the sequential loop does, unless it is cancelled or the executor shuts down, and if the sequential loop ends after n turns, then it is done after a number of steps bounded by a multiple of n.", "quantifier": "all conditions, bodies, initial states and variables, conditions that are ready at once or late, all schedules of the routine, notifications, cancellation in several steps, loss of the output stream and shutdown of the executor, of any length, and loops that never end", "why_tests_cant": "the outcome depends on how late conditions, cancellation and the end of readers interleave with every call of the loop, and loops may run for any number of turns; tests see a few schedules.", "anchors": ["koladata/functor/parallel/stream_while.cc:StreamWhileHooks", "koladata/functor/parallel/stream_while.cc:StreamWhileReturnsTraits", "koladata/functor/parallel/stream_while.cc:StreamWhileYieldsTraits", "koladata/functor/parallel/stream_loop_internal.cc:Vars::Update", "koladata/functor/parallel/basic_routine.cc:StartBasicRoutine"]}
{"id": "C61", "title": "Adopting data from several sources gives their union", "statement": "When items, slices and bags from several sources are combined (as in assigning attributes or building a new object), the resulting bag has all entries of the bag adopted into, all entries of the added bags and all that the added slices reach, and nothing else; it fails exactly if two of these disagree on an entry or one cannot be extracted. The order of the arguments and repetitions do not matter, and nothing the bag had is lost even if it fails. If all sources share one bag, then that very bag is the result; if none has a bag, there is none. In the variant with fallbacks the first source that has an entry wins, and an immutable bag extended by a slice gives precedence to the slice.", "quantifier": "all lists of added bags and slices with or without bags, in any order and with any repetitions, all contents of bags, and all results of extraction", "why_tests_cant": "the result depends on which sources share bags and on every pair of entries that may conflict; tests try a few combinations of two or three bags.", "anchors": ["koladata/adoption_utils.h:AdoptionQueue", "koladata/adoption_utils.cc:AdoptionQueue::AdoptInto", "koladata/adoption_utils.cc:AdoptionQueue::GetCommonOrMergedDb", "koladata/adoption_utils.cc:AdoptionQueue::GetBagWithFallbacks", "koladata/adoption_utils.cc:WithAdoptedValues"]}
{"id": "C62", "title": "Stacking or concatenating a stream is that of all its slices at once", "statement": "Stacking or concatenating the slices of a stream, whatever the timing of the slices and of the threads, writes exactly one slice: the initial slice and all slices of the stream, in order, stacked or concatenated at once, and only after the input was closed with success. It fails exactly if a slice has another rank than the initial one, or the input fails, or the slices cannot be joined. It is accepted exactly if the number of dimensions fits the rank. Cancelled at any time, it never writes the result for only some of the slices. It never stops while there is something to do.", "quantifier": "all slices and ranks, both modes, all numbers of dimensions, items and closings of the input at any times, all schedules of the routine, notifications, cancellation in several steps, loss of the output stream and shutdown of the executor, of any length", "why_tests_cant": "the outcome depends on how the arrival of slices, cancellation and the end of readers interleave with every call of the routine; tests see a few schedules.", "anchors": ["koladata/functor/parallel/stream_reduce_stack_or_concat.cc:StreamReduceStackOrConcatHooks", "koladata/functor/parallel/stream_reduce_stack_or_concat.cc:StreamReduceConcat", "koladata/functor/parallel/stream_reduce_stack_or_concat.cc:StreamReduceStack", "koladata/functor/parallel/basic_routine.cc:StartBasicRoutine", "koladata/functor/parallel/stream.cc:StreamImpl::Writer"]}
{"id": "C63", "title": "Visiting functors calls the callback once for each functor, subfunctors first", "statement": "Visiting a functor calls the callback exactly once for every functor that can be reached through variables, also if it is shared, and for no other, always after its subfunctors and with exactly their results under the names of the variables; the result is that for the root. It raises that a functor is recursive only if one that can be reached contains itself at some depth, never succeeds if there is one, passes on the first error of the callback, and always ends.", "quantifier": "all graphs of functors, shared or recursive, of any depth and size, and all callbacks, including those that raise", "why_tests_cant": "the order of visits and sharing depend on the whole graph; tests try a few small functors.", "anchors": ["py/koladata/functor/visitor/visitor.py:_FunctorVisitor", "py/koladata/functor/visitor/visitor.py:visit_functors"]}
