{"id": "C01", "title": "Queue is a FIFO list", "statement": "For every sequence of enqueue (single item or batch), dequeue(n), peek(n), indexing and clear in which the number of items enqueued since the last clear never exceeds max_size and no dequeue/peek/index reaches past the live items, every observable result (returned items in order, size, emptiness) equals that of a plain list with append at the back and removal at the front.", "quantifier": "every max_size (< 2^31), every item type and value, every finite operation history satisfying the capacity and occupancy side conditions", "why_tests_cant": "the claim is over all histories and all capacities; tests sample a few short scripts", "anchors": ["xtructure/queue/queue.py: Queue.build/enqueue/dequeue/peek/clear/size/__getitem__"]}
{"id": "C02", "title": "Queue overflow drops exactly the excess and corrupts nothing", "statement": "An enqueue that would pass the end of the backing array stores exactly the prefix of the batch that fits, leaves every item already stored (live or not) unchanged, and raises no error; the space freed by earlier dequeues is NOT reused until clear, and `size` still counts the dropped items. In particular 'an enqueue while size < max_size is never lost' is false.", "quantifier": "every queue state reachable by any history, every batch", "why_tests_cant": "needs every combination of head, tail and batch length at and beyond the boundary", "anchors": ["xtructure/queue/queue.py: Queue.enqueue, Queue.size"]}
{"id": "C03", "title": "Stack is a LIFO list", "statement": "For every sequence of push (single/batch), pop(n), peek(n) and indexing in which the size never exceeds max_size and no pop/peek takes more than size items, every observable result equals that of a plain list with push at the end and removal of the last n items (returned in bottom-to-top order); peek does not change the stack and push-then-pop of the same batch restores the stack contents.", "quantifier": "every max_size (< 2^31), every item type, every finite history satisfying the side conditions", "why_tests_cant": "over all histories and capacities", "anchors": ["xtructure/stack/stack.py: Stack.build/push/pop/peek/size/__getitem__"]}
{"id": "C04", "title": "Stack overflow leaves stored items intact", "statement": "A push past max_size stores exactly the prefix that fits and leaves all items below unchanged, while size grows by the full batch; after popping the same number of items the original contents are intact.", "quantifier": "every reachable stack, every batch length", "why_tests_cant": "boundary behaviour for every size/batch combination", "anchors": ["xtructure/stack/stack.py: Stack.push, Stack.pop"]}
{"id": "C05", "title": "Removing from an empty queue or stack", "statement": "Dequeue/pop of more items than are present is not detected: the reported size becomes the unsigned 32-bit wrap-around of (size - n), so 'size is never larger than the number of items added' is false exactly when a removal exceeds the live count. The rows returned for items that are not there are: for a stack the slots at the far end of the storage (the first slot once those run out), for a queue the slots behind the last item (the last slot once those run out). Of the items added afterwards, by whatever mix of single and batch calls, exactly as many as were removed in excess are lost, the first ones.", "quantifier": "every state, every n, every sequence of later additions", "why_tests_cant": "requires characterising all under-flowing states, including wrap-around arithmetic", "anchors": ["xtructure/queue/queue.py: Queue.dequeue, Queue.size", "xtructure/stack/stack.py: Stack.pop"]}
{"id": "C06", "title": "Block merge keeps the smaller half, loses nothing", "statement": "The merge/split step used by the heap, applied to two sorted key blocks with their values, returns the n smallest (key,value) pairs in ascending key order and the remaining pairs in ascending order; together they are a permutation of the input pairs, so no value ever gets separated from its key.", "quantifier": "all block lengths, all sorted key blocks, all values, all tie patterns", "why_tests_cant": "all lengths and tie patterns", "anchors": ["xtructure/bgpq/_merge.py: merge_sort_split", "xtructure/bgpq/merge_split/split.py: merge_sort_split_idx", "xtructure/bgpq/_utils.py: sort_arrays"]}
{"id": "C07", "title": "All merge backends agree", "statement": "The sort-based, the sequential two-pointer, and the parallel merge-path implementations of the indexed merge return the same keys and the same source indices for every pair of sorted inputs (ties taken from the first input, each side in order), for every block width of the parallel kernel.", "quantifier": "all input lengths including 0, all sorted inputs with ties, all positive block sizes, all partitions of the output among blocks", "why_tests_cant": "per-block results are assembled from independent programs; equality must hold at every diagonal for every tie pattern", "anchors": ["xtructure/bgpq/merge_split/split.py: merge_sort_split_idx", "xtructure/bgpq/merge_split/loop.py: merge_arrays_indices_loop, merge_indices_kernel_loop", "xtructure/bgpq/merge_split/parallel.py: merge_arrays_parallel, merge_parallel_kernel", "xtructure/bgpq/merge_split/common.py: binary_search_partition"]}
{"id": "C08", "title": "Merge-path partition is correct and consecutive blocks are disjoint", "statement": "For every output offset k the partition search terminates and returns how many of the first k merged elements come from the first input; successive offsets give non-overlapping ranges that together cover both inputs.", "quantifier": "all sorted inputs, all k between 0 and n+m", "why_tests_cant": "binary-search boundary conditions for all lengths and ties", "anchors": ["xtructure/bgpq/merge_split/common.py: binary_search_partition"]}
{"id": "C09", "title": "BGPQ structural invariant survives every history", "statement": "After any sequence of insert (of blocks padded with +inf) and delete_mins on a freshly built queue, every stored block is sorted, every block's largest key is at most each child's smallest key, all used blocks except possibly the root are completely filled, all unused blocks are +inf, the buffer is sorted and never below the root.", "quantifier": "every branch count, every batch size >= 1, every finite history of inserts and deletes, including overflow", "why_tests_cant": "an inductive invariant over unbounded histories and heap shapes", "anchors": ["xtructure/bgpq/bgpq.py: BGPQ.build, insert, delete_mins", "xtructure/bgpq/_insert.py: _bgpq_insert_heapify_internal, _bgpq_insert_jit", "xtructure/bgpq/_delete.py: _bgpq_delete_heapify_internal, _bgpq_delete_mins_jit", "xtructure/bgpq/_merge.py: merge_buffer"]}
{"id": "C10", "title": "delete_mins returns the batch_size smallest items", "statement": "After any history, delete_mins returns in ascending order a block of batch_size items such that every returned key is <= every key that remains, and returned plus remaining items are exactly the items that were stored (as key/value pairs), with +inf padding only when fewer than batch_size items were stored.", "quantifier": "every reachable queue", "why_tests_cant": "quantifies over all histories and key distributions", "anchors": ["xtructure/bgpq/_delete.py: _bgpq_delete_mins_jit, _bgpq_delete_heapify_internal, _make_empty"]}
{"id": "C11", "title": "BGPQ loses nothing until it is full", "statement": "As long as the queue is not full, insert adds exactly the finite-key pairs of the block to the stored multiset of (key,value) pairs, and delete_mins removes exactly the returned pairs: nothing is lost, duplicated, or re-associated with another value.", "quantifier": "every history that never inserts into a full heap", "why_tests_cant": "multiset equality over unbounded histories", "anchors": ["xtructure/bgpq/_insert.py: _bgpq_insert_jit", "xtructure/bgpq/_delete.py: _bgpq_delete_mins_jit", "xtructure/bgpq/_merge.py: merge_buffer"]}
{"id": "C12", "title": "BGPQ reported size is the number of stored items", "statement": "queue.size always equals the number of finite-key items currently stored in heap blocks and buffer.", "quantifier": "every reachable queue, including after overflow", "why_tests_cant": "size is maintained incrementally from block counters, correctness depends on the global invariant", "anchors": ["xtructure/bgpq/bgpq.py: BGPQ.size", "xtructure/bgpq/_insert.py", "xtructure/bgpq/_delete.py"]}
{"id": "C13", "title": "Draining a BGPQ sorts", "statement": "Inserting any items (fewer than the capacity) and then calling delete_mins until empty yields all of them, in globally non-decreasing key order, and needs exactly ceil(count/batch_size) calls.", "quantifier": "every insert sequence, any interleaving of partial blocks", "why_tests_cant": "all inputs, all block boundaries", "anchors": ["xtructure/bgpq/_delete.py: _bgpq_delete_mins_jit"]}
{"id": "C14", "title": "What a full BGPQ evicts", "statement": "Inserting into a full queue never evicts any of the batch_size smallest items, evicts at most batch_size items, and stored plus evicted items are exactly the old items plus the new ones. It does NOT guarantee that the evicted items are the largest ones: smaller items can be dropped while larger ones stay.", "quantifier": "every full reachable queue and every inserted block", "why_tests_cant": "all heap shapes and key distributions", "anchors": ["xtructure/bgpq/_insert.py: _bgpq_insert_heapify_internal"]}
{"id": "C15", "title": "make_batched pads without altering items", "statement": "make_batched returns a block of exactly batch_size keys and values whose first entries are the given items in order and whose remaining keys are +inf with default values; inserting it is equivalent to inserting just the items.", "quantifier": "all chunk lengths up to batch_size, all batch sizes", "why_tests_cant": "all lengths", "anchors": ["xtructure/bgpq/bgpq.py: BGPQ.make_batched", "xtructure/core/xtructure_numpy/dataclass_ops/batch_ops.py: pad"]}
{"id": "C16", "title": "Heap path addressing", "statement": "The insertion path visited for a target block is exactly the chain of heap ancestors of that block in root-to-target order, for every target index, and the child addressing used by deletion is its inverse.", "quantifier": "all block indices below 2^31", "why_tests_cant": "bit-level arithmetic for all indices", "anchors": ["xtructure/bgpq/_insert.py: _bgpq_insert_heapify_internal (shifts/ancestors)", "xtructure/bgpq/_utils.py: _next"]}
{"id": "C17", "title": "Streaming and concatenated hashing agree", "statement": "Hashing an instance field by field (streaming) gives the same pair as hashing the concatenation of its 32-bit words, for every way of splitting the words over fields, except that an instance all of whose fields are empty hashes differently in the two modes.", "quantifier": "all word sequences, all splits into fields, all seeds", "why_tests_cant": "all lengths and splits", "anchors": ["xtructure/core/xtructure_decorators/hash.py: hash_fast_uint32ed, hash_fast_pair_uint32ed and the streaming variants"]}
{"id": "C18", "title": "A one-word change always changes the hash", "statement": "Two instances of the same layout whose 32-bit word streams differ in exactly one word have different hashes under every seed; in particular types that fit one word never collide. The mixing function is a bijection on 32-bit words. The fingerprint a hash table stores changes whenever exactly one of the two hashes or the length it is made from changes.", "quantifier": "all word lists, positions, words and seeds", "why_tests_cant": "2^64 pairs; algebraic", "anchors": ["xtructure/core/xtructure_decorators/hash.py: _avalanche32, hash_fast_uint32ed"]}
{"id": "C19", "title": "The two hashes of a pair are not independent", "statement": "For a fixed type and seed the second hash of the pair is a fixed function of the first, so two instances collide on the pair iff they collide on the first 32-bit hash: the pair discriminates no better than 32 bits, and all items sharing the first hash share the same probe sequence and fingerprint.", "quantifier": "all instances of a type, all seeds", "why_tests_cant": "a statement about all pairs of instances", "anchors": ["xtructure/core/xtructure_decorators/hash.py: hash_fast_pair_uint32ed"]}
{"id": "C20", "title": "Field serialisation to 32-bit words is injective", "statement": "For a fixed type, two instances have the same 32-bit word stream iff all their fields have the same bytes: conversion of 8-, 16-, 32- and 64-bit fields (including padding of odd lengths) loses nothing. The bytes of a field are the little-endian bytes of its elements in order, its words are those bytes four at a time (least significant first, zero-padded), and fields follow each other in declaration order.", "quantifier": "all element widths, all field lengths", "why_tests_cant": "all lengths mod 4 and all byte values", "anchors": ["xtructure/core/xtructure_decorators/hash.py: leaf to uint32 conversion (byterize/uint32ed)"]}
{"id": "C21", "title": "Probe sequence visits every bucket", "statement": "For every built table the number of buckets is a power of two at least as large as the sizing formula requires, every hash starts inside the table, and the probe sequence of every item visits every bucket exactly once before repeating.", "quantifier": "all capacities, bucket sizes and hash pairs", "why_tests_cant": "number-theoretic, all powers of two", "anchors": ["xtructure/hashtable/table.py: HashTable.build", "xtructure/hashtable/hash_utils.py: get_new_idx_from_hash / step computation"]}
{"id": "C22", "title": "Insert then lookup finds the item, forever", "statement": "After any history of single and batched insertions on a table built with the default probe limit, every item ever reported as inserted (or found) is found by lookup and by lookup_parallel, at an index whose stored item equals it.", "quantifier": "all histories, all hash functions (any collision pattern), all capacities and bucket sizes below 256", "why_tests_cant": "all histories and all collision patterns", "anchors": ["xtructure/hashtable/lookup.py: _hashtable_lookup_internal, _hashtable_lookup_parallel_internal", "xtructure/hashtable/insert.py: _hashtable_insert_jit, _hashtable_parallel_insert_internal_jit"]}
{"id": "C23", "title": "No false positives, stored items never move", "statement": "lookup reports found only if the returned index currently holds an item equal to the query, lookup_parallel likewise for every row, and only for rows whose filled flag is set; an item that has been stored at an index stays at that index with the same contents after any later operations.", "quantifier": "all histories, including operations that fail for lack of space", "why_tests_cant": "all histories", "anchors": ["xtructure/hashtable/lookup.py", "xtructure/hashtable/insert.py", "xtructure/hashtable/table.py: __getitem__"]}
{"id": "C24", "title": "HashTable holds a set: no duplicates and exact size", "statement": "No two occupied slots hold equal items and table.size equals the number of distinct items stored, after any history.", "quantifier": "all histories of insert and parallel_insert with arbitrary duplicates in and across batches", "why_tests_cant": "all histories", "anchors": ["xtructure/hashtable/insert.py", "xtructure/hashtable/table.py: size"]}
{"id": "C25", "title": "insert succeeds whenever there is room", "statement": "With the default probe limit, insert of an absent item succeeds iff some slot is free, returns inserted=True exactly when the item was absent, and afterwards the stored set is the old set plus the item; a full table is left unchanged.", "quantifier": "all reachable tables and items", "why_tests_cant": "all load patterns up to 100% full", "anchors": ["xtructure/hashtable/insert.py: _hashtable_insert_jit", "xtructure/hashtable/lookup.py: _hashtable_lookup_internal"]}
{"id": "C26", "title": "parallel_insert is a set union", "statement": "parallel_insert(inputs, filled) stores exactly the old items plus a subset of the filled inputs; the inserted mask marks exactly one representative of each newly stored item; unfilled inputs are never stored. The GPU and TPU backends leave a filled input out only when the table is completely full. The default XLA backend is complete when m*F + m*(m-1)/2 <= max_probes for m filled inputs, each meeting at most F full buckets before its m-th free slot (at most all the full buckets of the table); otherwise its round limit can be exhausted with free slots left, and an input is then silently not stored (with all default settings and a total within the requested capacity).", "quantifier": "all tables, batches, masks and collision patterns", "why_tests_cant": "all batch contents and collision patterns", "anchors": ["xtructure/hashtable/insert.py: _hashtable_parallel_insert_jit, _hashtable_parallel_insert_internal_jit, _resolve_slot_conflicts"]}
{"id": "C27", "title": "Indices returned by parallel_insert retrieve the inputs", "statement": "For every filled input of parallel_insert that is present in the resulting table, table[idx] equals the input, for duplicates too.", "quantifier": "all batches, masks and tables", "why_tests_cant": "all duplicate patterns", "anchors": ["xtructure/hashtable/insert.py: _hashtable_parallel_insert_jit"]}
{"id": "C28", "title": "In-batch deduplication is exact in safe mode", "statement": "The in-batch uniqueness mask selects, for every distinct filled item, exactly one filled occurrence \u2014 the one with the smallest unique_key (ties: lowest batch index), or the lowest index when no key is given \u2014 and maps every filled occurrence to it. With the library's hash and the default (safe) mode this holds for every batch of items of at most 32 bytes without costs or with finite costs. Exceptions: an item whose hash pair (signature, or row with infinite cost) equals the all-ones pattern reserved for unfilled entries can be dropped, and approximate mode drops colliding items.", "quantifier": "all batches, masks, cost keys and hash collision patterns", "why_tests_cant": "all permutations, ties and hash collisions", "anchors": ["xtructure/hashtable/hash_utils.py: _compute_unique_mask_from_hash_pairs, _compute_unique_mask_from_uint32eds"]}
{"id": "C29", "title": "GPU (Triton) insertion is safe under every interleaving", "statement": "However the parallel GPU programs interleave, with arbitrarily stale reads of occupancy, no slot is claimed twice, already stored items are untouched, every successful program's slot lies on its probe chain with all earlier buckets full, and occupied slots of each bucket stay a prefix.", "quantifier": "all interleavings of any number of programs", "why_tests_cant": "schedules cannot be enumerated by tests", "anchors": ["xtructure/hashtable/insert_triton.py", "xtructure/hashtable/insert.py"]}
{"id": "C30", "title": "TPU (Pallas) insertion satisfies the same contract", "statement": "The sort-and-assign round based insertion places each pending item in a free slot of the first non-full bucket on its chain at that round, never two in one slot, and keeps bucket prefixes.", "quantifier": "all batches and tables", "why_tests_cant": "all collision patterns", "anchors": ["xtructure/hashtable/insert_pallas.py"]}
{"id": "C31", "title": "Custom probe limits and wide buckets break lookup", "statement": "With a user-chosen max_probes smaller than needed, insert can report success for an item that lookup will never find and parallel_insert can store duplicates; with max_probes = 0 parallel_insert overwrites stored items; with max_probes within bucket_size of 2^32 a lookup in a full table never returns; a bucket that reaches 256 items becomes invisible to lookup. For bucket_size < 256 and the default limit none of this can happen.", "quantifier": "all max_probes and bucket sizes", "why_tests_cant": "needs the exact boundary for all configurations", "anchors": ["xtructure/hashtable/lookup.py", "xtructure/hashtable/insert.py", "xtructure/hashtable/types.py"]}
{"id": "C32", "title": "Aggregate bit packing round-trips", "statement": "For every dataclass layout of bit-width-annotated fields, packing then unpacking returns every element modulo 2^bits (hence exactly, if it was in range), with fields not disturbing each other even when an element straddles a word boundary.", "quantifier": "all layouts (any number of fields, element counts, widths 1..32), all values", "why_tests_cant": "all alignments of fields to words", "anchors": ["xtructure/core/xtructure_decorators/aggregate_bitpack/spec.py", "xtructure/core/xtructure_decorators/aggregate_bitpack/kernels.py", "xtructure/core/xtructure_decorators/aggregate_bitpack/bitpack.py"]}
{"id": "C33", "title": "Packed storage size is minimal in bytes", "statement": "The packed representation consists of full 32-bit words plus a tail of at most 2 bytes whose total capacity is at least the total number of bits and less than one extra byte more (one extra padding byte when the remainder is 3 bytes).", "quantifier": "all total bit counts", "why_tests_cant": "all residues for all sizes", "anchors": ["xtructure/core/xtructure_decorators/aggregate_bitpack/spec.py: _compute_word_tail_layout", "xtructure/core/field_descriptors.py: _packed_num_bytes"]}
{"id": "C34", "title": "to_uint8/from_uint8 round-trip", "statement": "Packing an array with b bits per element into bytes and unpacking restores every element modulo 2^b (for b = 1: nonzero maps to 1), for every width and every element count, including counts that do not fill the last byte; the packed length is the documented ceil(count*b/8) rounded to blocks.", "quantifier": "all widths 1..32, all lengths, all values", "why_tests_cant": "all lengths and alignments", "anchors": ["xtructure/core/xtructure_decorators/aggregate_bitpack/bitpack.py: to_uint8, from_uint8, packed_num_bytes", "xtructure/core/xtructure_decorators/bitpack_accessors.py"]}
{"id": "C35", "title": "Unpacking one field reads only that field", "statement": "Reading one element of one field from the packed form gives the same value as unpacking everything, for every in-range index; writing through set_unpacked and re-reading returns the written value. Out-of-range indices are not checked and can expose bits of neighbouring fields.", "quantifier": "all layouts and element indices", "why_tests_cant": "all alignments", "anchors": ["xtructure/core/xtructure_decorators/aggregate_bitpack/__init__.py: unpack_field", "xtructure/core/xtructure_decorators/bitpack_accessors.py"]}
{"id": "C36", "title": "save/load round-trips", "statement": "Loading a saved instance gives back an equal instance whenever every bit-annotated element fits in its declared bits; unannotated fields round-trip unconditionally, whatever the dtype of their arrays. A float field saved with one bit keeps only whether each entry is zero and comes back as 0.0 and 1.0; an array whose dtype is not the declared one is loaded with the declared dtype if the field is saved in bits (numbers that fit are kept) and with its own dtype otherwise. The default instance of a bit-annotated unsigned field does not fit and is altered by save/load.", "quantifier": "all dataclass trees, instances of any dtypes, values", "why_tests_cant": "all nested structures and values", "anchors": ["xtructure/io/io.py: save, load, _flatten_instance_for_save", "xtructure/core/field_descriptors.py"]}
{"id": "C37", "title": "update_on_condition: first true update wins", "statement": "Each target position receives the value of the lowest-index update whose condition is true and which addresses it; positions addressed by no true update keep their old value; out-of-range 1-D indices are ignored. On instances update_on_condition and .at[indices].set_as_condition do this to whole rows and never raise, provided the index dtype is an integer dtype that has the number of rows; otherwise (e.g. int8 indices and 128 rows, even if all indices are rows) update_on_condition raises.", "quantifier": "all index/condition/value arrays", "why_tests_cant": "all duplicate patterns", "anchors": ["xtructure/core/xtructure_numpy/array_ops.py: _update_array_on_condition"]}
{"id": "C38", "title": "unique_mask selects one cheapest representative per key", "statement": "unique_mask marks exactly one entry per distinct filled key row: with a cost array the lowest-cost (lowest-index on ties) finite-cost entry, otherwise the first; return_index/return_inverse are consistent with the mask. Exact for keys of at most four 32-bit columns; for wider keys the row hash merges distinct rows (e.g. flipping the top bit of any two columns), and for packed types the default key ignores the trailing bytes.", "quantifier": "all key matrices, cost arrays and masks", "why_tests_cant": "all inputs including adversarial hash collisions", "anchors": ["xtructure/core/xtructure_numpy/dataclass_ops/unique_ops/optimized_unique_ops.py: unique_mask"]}
{"id": "C39", "title": "Dataclass tree flatten/unflatten round-trips", "statement": "Flattening an instance into its array leaves and rebuilding it gives back an instance with the same declared and static fields, in declaration order, independent of nesting; mapping a function over leaves preserves structure.", "quantifier": "all dataclass shapes, nested to any depth", "why_tests_cant": "all nesting depths and field sets", "anchors": ["xtructure/core/dataclass.py", "xtructure/core/xtructure_decorators/structure_util.py"]}
{"id": "C40", "title": "Batch shape inference", "statement": "An instance reports batch shape s iff every field's array shape is s followed by the field's intrinsic shape (nested fields likewise); default(shape), indexing, reshape and flatten produce instances consistent with this.", "quantifier": "all layouts and shapes", "why_tests_cant": "all ranks and layouts", "anchors": ["xtructure/core/xtructure_decorators/shape.py: get_shape", "xtructure/core/xtructure_decorators/default.py", "xtructure/core/xtructure_decorators/structure_util.py"]}
{"id": "C41", "title": "Row-wise semantics of batch operations", "statement": "Indexing, concat, stack, take, reshape and flatten on a structure-of-arrays instance act as the same operation on the array of structures: element i of the result is assembled from one element of the input for every field. This holds for non-negative axes; with negative axes concat/stack of types having tensor fields joins along a field's own axis, and where with a batch condition broadcasts it against trailing field axes. take_along_axis along a batch axis reads, for each element of the result, the row named by the entry of the indices at its leading coordinates (0 along axes of size 1): indices may lack trailing axes or have axes of size 1, and raise if they do not broadcast; one index per row picks one element of each row, the same in every field.", "quantifier": "all layouts, shapes, axes and indices", "why_tests_cant": "all layouts and axes", "anchors": ["xtructure/core/xtructure_numpy/dataclass_ops/batch_ops.py", "xtructure/core/xtructure_numpy/dataclass_ops/shape_ops.py", "xtructure/core/xtructure_numpy/dataclass_ops/logical_ops.py", "xtructure/core/xtructure_decorators/indexing.py"]}
{"id": "C42", "title": "Equality of instances", "statement": "a == b on two instances of one class and batch shape is a single boolean, true exactly when all elements of all fields are equal as numbers (NaN equals nothing, -0.0 equals 0.0); a != b is always its negation; a == a iff there is no NaN; == is symmetric and transitive; comparing one instance with a batch is true iff it equals every element. For instances without NaN and -0.0, a == b, equality of the uint32ed words and identity coincide, hence such instances satisfy the hash-table guarantees: an inserted item is found through any instance that == it. With -0.0 two equal instances have different words and hashes.", "quantifier": "all classes (nested to any depth), dtypes, batch shapes and contents", "why_tests_cant": "all bit patterns and class layouts", "anchors": ["xtructure/core/xtructure_decorators/ops.py: _xtructure_eq, _xtructure_ne", "xtructure/core/xtructure_decorators/hash.py: _leaf_to_uint32, _to_uint32_raw"]}
{"id": "C43", "title": "Aggregate bit-packing of batches", "statement": "For a class all of whose leaves declare bits, x.packed of a batch of any shape is a batch of the same shape of the Packed class; packing is element-wise (the element of the packed batch at an index is the packed element); x.packed.unpacked holds, at every place, the low declared bits of the element of x in the default dtype, x.packed.as_original() the same in the declared dtype, and is x itself when every element fits in its declared bits. The XLA code and the Pallas kernel give the same result for every tile size, order of the grid programs and uninitialized output buffer. The decorator in its default mode never fails and gives .packed exactly to the non-empty classes whose leaves all declare bits and whose nested fields are scalar; forcing aggregate packing on other classes raises; bitpack='field'/'off' conflicts with aggregate_bitpack=True.", "quantifier": "all such classes (nested to any depth, under 2^32 bits per instance), batch shapes, contents, kernel tile sizes and program orders", "why_tests_cant": "all layouts, batch shapes and grid schedules", "anchors": ["xtructure/core/xtructure_decorators/aggregate_bitpack/__init__.py: packed, unpacked, unpack, as_original", "xtructure/core/xtructure_decorators/aggregate_bitpack/kernels.py: pack_words_all_xla, pack_words_all_pallas", "xtructure/core/xtructure_decorators/aggregate_bitpack/spec.py", "xtructure/core/xtructure_decorators/__init__.py: xtructure_dataclass"]}
{"id": "C44", "title": "Hashing in packed mode", "statement": "With XTRUCTURE_HASH_AGG_MODE=packed, uint32ed is ceil(bits/32) words and bytes the same bits, namely the declared bits of all elements in declaration order, whichever backend packed them. Two instances have the same words (and bytes, and hashes) if and only if their fields agree in the declared bits; for instances whose elements fit in their declared bits this is equality of the instances, so such types satisfy all hash-table guarantees when their default instance fits. Otherwise not: an unsigned field narrower than its dtype has an out-of-range default fill, and the default instance has the words of a different in-range instance.", "quantifier": "all classes whose leaves declare bits, all contents, seeds and backends", "why_tests_cant": "injectivity over all contents and layouts", "anchors": ["xtructure/core/xtructure_decorators/hash.py: _words_all_from_packed_instance, _byterize_fn, _to_uint32_fn, _h_pair", "xtructure/core/field_descriptors.py"]}
{"id": "C45", "title": "Containers store instances row by row", "statement": "Storage is one array per field. Reading a batch instance at an integer or an index vector returns complete rows (all fields of the same row; indices clamp); x.at[indices].set(y) replaces complete rows by complete rows of y (or by one instance broadcast), leaving the others untouched; x.at[indices].set_as_condition(cond, y) replaces row p by the row of the first update that addresses p with a true condition, in every field. Hence every history of enqueue/dequeue/peek/index/clear on a Queue, and push/pop/peek/index on a Stack, of instances of any class (nested, any field shapes) never raises and returns the instances a queue (stack) holding a list of instances returns; legal histories are FIFO (LIFO). Items that are neither single nor a one-dimensional batch are refused. The claim that set_as_condition also works with indices, condition and values of a common two-dimensional batch shape is false: nothing is written. The last needs indices of an integer dtype that has the number of rows: otherwise set_as_condition silently changes nothing.", "quantifier": "all classes, storage sizes, index arrays, conditions, instances and call histories", "why_tests_cant": "all classes and all histories; per-field scatters could disagree", "anchors": ["xtructure/core/xtructure_decorators/indexing.py: set, set_as_condition, getitem", "xtructure/core/xtructure_numpy/array_ops.py: _update_array_on_condition", "xtructure/queue/queue.py", "xtructure/stack/stack.py"]}
{"id": "C46", "title": "Queue values stay with their keys and whole across every operation", "statement": "A batched priority queue keeps its keys in one array and its values in a second instance with one array per field. For every history of inserts and deletions, the instance returned at a position of delete_mins is, in all of its fields, the instance that was inserted with the key returned at that position; the calls never raise; sizes and contents are those of a priority queue of (key, instance) pairs; the two settings of XTRUCTURE_BGPQ_VALUE_REORDER leave identical arrays and return identical instances; make_batched pads keys with +inf and values with default instances.", "quantifier": "every value class without empty nested classes, every capacity and batch size within the counters' range, every history of legal inserts and delete_mins, both reorder modes", "why_tests_cant": "keys and every field array are permuted separately in merges, the scan along a root path, the masked scatter and the sift-down buffers; a field that goes astray for one index pattern shows only in particular histories", "anchors": ["xtructure/bgpq/_merge.py:_gather_sorted_values", "xtructure/bgpq/_merge.py:merge_sort_split", "xtructure/bgpq/_insert.py:_bgpq_insert_jit", "xtructure/bgpq/_delete.py:_bgpq_delete_mins_jit", "xtructure/bgpq/_utils.py:_scatter_update_rows"]}
{"id": "C47", "title": "A hash-table index names one complete instance", "statement": "A HashTable keeps its items as the rows of one instance with an array per field, next to separate fill-level, occupancy and fingerprint arrays. For every history of insert and parallel_insert, an instance reported as inserted at index i is found there by lookup and lookup_parallel and table[i] returns that instance with all of its fields; lookup finds nothing that was not inserted; no later operation moves or alters a stored instance; size counts the stored instances; parallel_insert, on every backend, stores each reported element of the batch whole at its returned index and leaves all other rows alone; with room and a batch small against the probe limit, reading the returned indices gives back the inserted batch. None of the calls raises.", "quantifier": "every class with supported dtypes and no empty nested class, every capacity, bucket size and probe limit in range, every seed and hashing mode (streamed, concatenated, packed), every dedupe mode and sort backend, every history, mask and batch of instances without NaN or -0.0, every backend schedule", "why_tests_cant": "each field array is scattered and gathered separately with computed flat indices, out-of-range sentinels for rejected rows and wraparound index rules; a field written at a different row than its siblings shows only for particular batches and collision patterns", "anchors": ["xtructure/hashtable/insert.py:_scatter_set_xtructurable_drop", "xtructure/hashtable/insert.py:_scatter_safe_indices", "xtructure/hashtable/insert.py:_hashtable_parallel_insert_jit", "xtructure/hashtable/lookup.py:_hashtable_lookup_bucket_jit", "xtructure/hashtable/lookup.py:_hashtable_lookup_parallel_jit", "xtructure/hashtable/table.py:HashTable"]}
{"id": "C48", "title": "Random instances are well formed", "statement": "Cls.random(shape, key) returns an instance of the class with batch shape exactly `shape` in every (nested) field and the declared dtypes; every integer, boolean and float element is a value of its dtype, floats lie in [0, 1) and are never NaN, infinite or -0.0, so the instance equals itself and can be stored in and found again in a HashTable. Conversely every such instance is the result for some generator. The claim that the values of a field declared with bits=b fit in b bits is false: packing a random instance may alter it.", "quantifier": "every class (nested, any field shapes and dtypes), batch shape, key, and every behaviour of the random generator", "why_tests_cant": "the generator's output is arbitrary: a bad value appears only for particular keys", "anchors": ["xtructure/core/xtructure_decorators/structure_util.py: add_structure_utilities, random"]}
{"id": "C49", "title": "What validate=True accepts", "statement": "Constructing an instance of a class decorated with validate=True succeeds exactly when every field's validator accepts its value, every array field has the declared dtype and a shape ending in the declared shape, and every nested field is an instance of its class; the instance is then unchanged. Default and random instances and all well-formed batches, of any batch shape, pass. Not checked, and therefore false as claims: that fields share a batch shape, that the contents of nested instances are valid, that results of batch operations or of assigning an attribute stay valid.", "quantifier": "every class, every combination of field values, validators and batch shapes", "why_tests_cant": "all shapes and dtypes; the accepted set must be characterised exactly", "anchors": ["xtructure/core/xtructure_decorators/validation.py: add_validation, _validate_array_field"]}
{"id": "C50", "title": "Field declarations mean what they say", "statement": "A declaration is accepted exactly when fill value and factory are not both given and bits/packed_bits are in 1..32; it then has the declared dtype, shape, factory, bits and validator. Without a fill value, default(shape) fills a field with the greatest value of an unsigned or float dtype and 0 otherwise; with one, with that value; with a factory, with what it returns. FieldDescriptor.packed_tensor stores exactly as many bytes as packing needs and its inferred logical dtype holds every value of the declared number of bits. FieldDescriptor[dtype, shape, fill] is the same declaration. Cloning without changes is the identity; a clone changes exactly what is asked; broadcasting the declared shape makes default(s) of the new field equal to default(s + shape) of the old. descriptor_metadata(d) holds every keyword of the constructor once with d's value, and FieldDescriptor(**descriptor_metadata(d)) is d. False as claims: packed_tensor accepts a fill_value_factory (its fill defaults to 0, so it always raises); a clone to another dtype has that dtype's default fill (it keeps the old one, which may not fit).", "quantifier": "every dtype, shape, fill, factory, bit width, batch shape", "why_tests_cant": "ranges over all dtypes, shapes and bit widths", "anchors": ["xtructure/core/field_descriptors.py: FieldDescriptor.__init__, tensor, scalar, packed_tensor, __class_getitem__, _default_fill_value_for_dtype", "xtructure/core/field_descriptor_utils.py: clone_field_descriptor, with_intrinsic_shape, broadcast_intrinsic_shape, descriptor_metadata", "xtructure/core/xtructure_decorators/default.py: add_default_method"]}
{"id": "C51", "title": "Packed fields of batches read back what was assigned, element by element", "statement": "For an instance of any batch shape B, x.f_unpacked has shape B + logical shape and the logical dtype, and its element b is the f_unpacked of element b. x.set_unpacked(f=v, ...) succeeds exactly when every name is a packed field and every v has shape B + logical shape; the result has the same batch shape, f_unpacked returns v reduced to the declared bits (v itself when it fits; for values and fields of any dtypes, floats included, every whole number that fits the bits and the field's dtype is read back as that number), every field not named is unchanged, and element b of the result depends only on element b of x and of the values. from_unpacked(shape, ...) builds an instance of that batch shape in which packed arguments read back as above, other arguments are stored as given and missing fields have their defaults, whether or not all fields are given. False as claims: from_unpacked rejects unknown names (it ignores them when every field is given); a packed field with no values can be read (the accessor raises).", "quantifier": "every class, batch shape, packed field (1..32 bits, any logical shape), every value array, every set of keyword arguments", "why_tests_cant": "all bit widths, shapes and batches; rows share byte-level tables and reshapes", "anchors": ["xtructure/core/xtructure_decorators/bitpack_accessors.py: _unpack_value, _pack_value, add_bitpack_accessors"]}
{"id": "C52", "title": "The remaining batch operations move whole elements", "statement": "moveaxis, rot90, flip and roll over several non-negative batch axes, repeat with one count per position, vstack/hstack/dstack/column_stack, broadcast_to, broadcast_arrays, atleast_1d/2d/3d, tile, take and concatenate without an axis, flip and squeeze of everything, applied to instances, return an instance of the same class whose batch shape is the one NumPy gives for the batch and whose every element is, with all its fields, the element NumPy's rule selects. The conditions differ: the first group needs non-negative axes inside the batch; the stacking helpers need enough batch axes (two, three for dstack) or a class of scalar fields; the whole-array forms need a class of scalar fields. False as claims: that a negative axis counts from the end of the batch (moveaxis then mixes elements and still reports the right batch shape); that vstack etc. of one-dimensional batches work for classes mixing scalar and tensor fields (the result is UNSTRUCTURED); that take and take_along_axis with their default axis act on the batch.", "quantifier": "every class, batch shape, list of instances, axis list, shift, count list, index array", "why_tests_cant": "all ranks, axis permutations, field shapes and batch sizes", "anchors": ["xtructure/core/xtructure_numpy/dataclass_ops/shape_ops.py: moveaxis, repeat, broadcast_to, broadcast_arrays, atleast_1d, tile, squeeze", "xtructure/core/xtructure_numpy/dataclass_ops/spatial_ops.py: roll, flip, rot90", "xtructure/core/xtructure_numpy/dataclass_ops/batch_ops.py: vstack, hstack, dstack, column_stack", "xtructure/core/xtructure_numpy/__init__.py: concat, take, take_along_axis"]}
{"id": "C53", "title": "Element-wise operations act on every entry of every field", "statement": "equal and not_equal of two batches return an instance with boolean fields whose every entry says whether the two entries are the same number (NaN is equal to nothing, -0.0 equals 0.0), and == is true exactly when all entries of equal are. full_like/zeros_like/ones_like keep class, shapes and dtypes and set every entry. astype converts every entry (kept when it fits, reduced modulo the width otherwise, nonzero to true). where with an instance of conditions, where_no_broadcast with a condition of the batch shape, and where with a Python int select entry by entry; where_no_broadcast raises exactly when some field does not have the shape of the condition. All commute with taking an element of the batch. False as a claim: where with a Python int keeps the field dtypes (every integer and boolean field becomes int32 and uint32 values above 2^31-1 turn negative).", "quantifier": "every class, batch shape, contents including NaN and signed zero, condition, dtype", "why_tests_cant": "all dtypes, shapes and values", "anchors": ["xtructure/core/xtructure_numpy/dataclass_ops/comparison_ops.py: equal, not_equal", "xtructure/core/xtructure_numpy/dataclass_ops/fill_ops.py", "xtructure/core/xtructure_numpy/dataclass_ops/type_ops.py: astype", "xtructure/core/xtructure_numpy/dataclass_ops/logical_ops.py: where, where_no_broadcast", "xtructure/core/xtructure_numpy/array_ops.py: _where_no_broadcast"]}
{"id": "C54", "title": "Padding a batch", "statement": "pad(x, pad_width, mode) of a batch returns an instance whose batch axis k is longer by before_k + after_k; old element s is at s + before, the others are: with constant_values=v, elements filled with v; with mode edge, wrap, reflect or symmetric, the old element at the nearest position, at the position congruent modulo the axis size, or at the mirror image about the end elements or the ends. Whole elements move, all fields together. A single element is padded to a one-dimensional batch. An int pads every axis on both sides, a list of pairs is one pair per axis, a list of ints one int per axis, negative widths raise. False as a claim: two ints on a two-dimensional batch are one int per axis (they are before and after of axis 0). With a mode that computes the padding (maximum, minimum, mean of non-empty fields) the rows of the batch keep their contents and move together, and every padding entry is the statistic of that field's own entries; that padding rows are rows of the batch is then false, except for a single instance or with stat_length=1, which repeats the first and the last row; with stat_length=m the entries before are the statistic of the first m rows and those after of the last m (all if there are fewer), and 0 raises. linear_ramp, too, keeps the rows and computes each padding entry from that field's entries.", "quantifier": "every class, batch shape, pad width, mode, fill", "why_tests_cant": "all shapes and widths, including widths larger than the axis", "anchors": ["xtructure/core/xtructure_numpy/dataclass_ops/batch_ops.py: _normalize_pad_width, pad"]}
{"id": "C55", "title": "Saved files over time", "statement": "After any history of save calls on any paths - finished, raising by themselves, stopped by an exception at any point, or killed - what load(path) returns is decided by the last call that opened path's file: that call's instance if it wrote everything, an exception otherwise; other paths are unaffected and a call that raises before opening the file changes nothing. A load never returns a mixture of two saves or part of one. Cls.load(path) returns the instance exactly when its class is Cls or a subclass. save(path)/load(path) meet exactly for paths ending in .npz, and two paths share a file exactly when they differ by that suffix. False as claims: that save(path) then load(path) works for any path; that a save over an existing file which is stopped while writing leaves the old instance loadable.", "quantifier": "every history of saves, every stopping point (including inside one archive member), path, class, instance", "why_tests_cant": "all interleavings of crash points and histories", "anchors": ["xtructure/io/io.py: save, load", "xtructure/core/xtructure_decorators/io.py: add_io_methods"]}
{"id": "C56", "title": "Loading a file after the class has changed", "statement": "Loading a file with a class that has changed since the save looks every field of the new class up by name: array fields stored plainly come back as they were, fields stored in bits are cast to the newly declared dtype, nested fields are treated likewise; removing and reordering fields is harmless; the load fails exactly when the new class has, at any nesting depth, an array field that was not saved as an array field. The number of bits is read from the file, so changing bit annotations does not affect old files. False as a claim: that a loaded instance has the dtypes its class declares (plainly stored fields keep the old dtype).", "quantifier": "every old class, new class, instance, packed or not", "why_tests_cant": "all pairs of classes", "anchors": ["xtructure/io/io.py: _unflatten_data_for_load, _flatten_instance_for_save, load"]}
{"id": "C57", "title": "The priority queue with IEEE floating-point keys", "statement": "For a queue whose keys are 16-, 32- or 64-bit IEEE numbers given as bit patterns, every history of insert and delete_mins calls whose blocks may contain NaNs, both zeros, subnormals and +inf refines the bag specification in numeric order: delete_mins returns the numerically smallest stored items in ascending order, then slots with key +inf; items with a NaN or +inf key are not stored or counted; nothing else is lost while it fits; stored blocks and returned blocks never contain NaN. 0.0 and -0.0 are the same priority. False as a claim: that every inserted item is stored (a NaN cost drops its item silently).", "quantifier": "every float width, queue size, batch size, history of blocks of bit patterns except -inf", "why_tests_cant": "all histories and all bit patterns", "anchors": ["xtructure/bgpq/bgpq.py: BGPQ", "xtructure/bgpq/_insert.py", "xtructure/bgpq/_delete.py", "xtructure/bgpq/merge_split/split.py"]}
{"id": "C58", "title": "The hash table on items with float fields, NaN and -0.0 included", "statement": "Items are compared with IEEE == (NaN != NaN, 0.0 == -0.0) and hashed by bit pattern. For every history of insert and parallel_insert calls on items with arbitrary float bit patterns: an item without NaN is found exactly when an item with the same bits was reported inserted, at the index reported, and table[idx] returns it bit for bit; an item with a NaN is never found and is inserted anew at every insertion while a slot is free; reported entries have distinct indices and size is their number; an item without NaN is stored at most once; batches report the same per element. The only hypothesis is that no two distinct inputs that are == share their 32-bit fingerprint, which holds outright for inputs without -0.0. False as a claim: that == items are stored once (0.0 and -0.0 both get stored, a NaN every time).", "quantifier": "every class of items, every history, mask, backend, every float bit pattern", "why_tests_cant": "all histories and all bit patterns", "anchors": ["xtructure/hashtable/table.py: HashTable.insert, lookup, parallel_insert, lookup_parallel", "xtructure/core/xtructure_decorators/ops.py: __eq__", "xtructure/core/xtructure_decorators/hash.py"]}
{"id": "C59", "title": "parallel_insert and unique_mask with NaN costs", "statement": "unique_key may contain NaN. All soundness properties of parallel_insert (C22-C28 except exactness of deduplication) hold unchanged. For batches whose grouping is exact: an item none of whose filled occurrences has a NaN cost is treated as if there were no NaN in the batch (its cheapest occurrence is chosen, first on ties, all occurrences get its index, the index retrieves it, it is inserted when there is room); an item with a NaN cost that equals entry 0 (filled) is inserted through entry 0; any other item with a NaN cost is not inserted, not marked unique, found afterwards only if it was present before, and reported with the index of entry 0. In unique_mask a NaN cost means exactly the same as +inf. False as a claim: that an item with one NaN-cost duplicate and one finite-cost duplicate is inserted.", "quantifier": "every history, batch, mask, backend, cost array with NaN anywhere", "why_tests_cant": "all batches, cost arrays and histories", "anchors": ["xtructure/hashtable/hash_utils.py: _compute_unique_mask_from_uint32eds, _compute_unique_mask_from_hash_pairs", "xtructure/hashtable/insert.py: _hashtable_parallel_insert_jit", "xtructure/core/xtructure_numpy/dataclass_ops/unique_ops/optimized_unique_ops.py: unique_mask"]}
{"id": "C60", "title": "Batch operations undo each other exactly", "statement": "On batches of every class and shape, these compositions return the very same instance (every field, dtype, shape and element): flip twice; roll by s then -s (and rolls on one axis add up); transpose by a permutation then its inverse (and transposes compose); reversing the axes twice; swapaxes twice; moveaxis(s,d) then moveaxis(d,s); rot90 turns add up modulo 4; expand_dims then squeeze and squeeze then expand_dims; reshape there and back, flatten then reshape; concat of the pieces of split when the cut positions are increasing or the sections equal, and split at the seams of a concat; indexing a stack along its axis, and stacking all such indices; reading a slice just written with .at[].set, writing back what was read, overwriting, and exchanging writes to disjoint boxes; slicing the padding away; take with a permutation then its inverse. False as a claim: concat of the pieces of split at positions that are out of order.", "quantifier": "all classes, nesting depths, batch shapes, axes, shifts, permutations, cut positions", "why_tests_cant": "all shapes, ranks and parameters", "anchors": ["xtructure/core/xtructure_numpy/dataclass_ops/batch_ops.py: concat, stack, take, split, pad", "xtructure/core/xtructure_numpy/dataclass_ops/shape_ops.py: reshape, flatten, transpose, swapaxes, moveaxis, expand_dims, squeeze", "xtructure/core/xtructure_numpy/dataclass_ops/spatial_ops.py: flip, roll, rot90", "xtructure/core/xtructure_decorators/indexing.py"]}
{"id": "C61", "title": "Integer costs in deduplication", "statement": "parallel_insert with an integer unique_key compares the costs after converting them to the default float type (nearest value, ties to even, order preserved, exact up to 2^24 in magnitude for float32). For every item of the batch exactly one occurrence is marked unique and all occurrences are reported with its index; it is the cheapest one (the first on ties) among costs up to 2^24 in magnitude, and in general its cost exceeds that of any other occurrence by at most a relative 2^-24 of their magnitudes. False as a claim: the cheapest occurrence is always kept.", "quantifier": "all item types, batches, fill masks, integer cost arrays, histories, backends", "why_tests_cant": "all integer costs, batches and tables", "anchors": ["xtructure/hashtable/hash_utils.py: _compute_unique_mask_from_uint32eds, _compute_unique_mask_from_hash_pairs", "xtructure/hashtable/insert.py: _hashtable_parallel_insert_internal"]}
{"id": "C62", "title": "Results do not depend on how the work is split or ordered", "statement": "Two hash tables that were asked to store the same items, through any mixture of insert and parallel_insert, in any order and with any batch boundaries, duplicates, fill masks and costs, with any hash seeds, backends, capacities and bucket sizes, report the same size, the same found flag for every lookup and the same found mask for every lookup_parallel, provided no call can lose an item (the bounds of C26). Two priority queues whose callers store the same keys between two delete_mins calls, however they are cut into insert calls, blocks, padding and order, return the same keys and sizes (and the same pairs if keys are distinct). Consecutive enqueue (push) calls equal one call with the concatenated batch, and consecutive dequeue (pop) calls return the items of one call. False as claims: the split never matters on the default hash-table backend without such a bound; equal keys come out with the same values.", "quantifier": "all programs, item types, hash functions, seeds, configurations, backends, splits and orders", "why_tests_cant": "pairs of arbitrary programs over arbitrary histories", "anchors": ["xtructure/hashtable/insert.py: _hashtable_insert_jit, _hashtable_parallel_insert_jit", "xtructure/hashtable/lookup.py", "xtructure/bgpq/bgpq.py: insert, delete_mins, make_batched", "xtructure/queue/queue.py", "xtructure/stack/stack.py"]}
{"id": "C63", "title": "A cost table beside a hash table holds the best offer for every stored item", "statement": "The search loop the library is made for: each batch is passed to parallel_insert with its costs as unique_key; an array with one entry per slot (initially infinite cost) is updated with xnp.update_on_condition at the returned indices where unique & (cost < entry). After any sequence of batches none of which can lose an item (the bounds of C26), every offered item is stored, the entry at its index is one of the offers made for it (cost and payload together) with the smallest cost over all batches, and entries whose index names no stored item still hold their initial value. False as a claim: this also holds when the table is full (a lost item's index names another item's slot, whose entry is overwritten with a cost nobody offered for it).", "quantifier": "all sequences of batches, items, masks, costs, payloads, hash functions, backends and configurations", "why_tests_cant": "arbitrary histories; composition of deduplication, slot assignment and conditional update", "anchors": ["xtructure/hashtable/insert.py: _hashtable_parallel_insert_jit", "xtructure/core/xtructure_numpy/array_ops.py: _update_array_on_condition", "xtructure/core/xtructure_numpy/dataclass_ops/logical_ops.py: update_on_condition"]}
{"id": "C64", "title": "BGPQ.insert with blocks of any length", "statement": "insert checks no length. Whatever the lengths of the inserted blocks (keys not -inf): no insert invents or duplicates an item and the batch_size smallest stored items survive it; delete_mins still returns exactly the smallest items in order; size is exact after every insert, after a delete lies between min(batch_size, stored) and stored, and is exact throughout if no block exceeds batch_size; size > 0 tells whether something is stored, so the usual drain loop ends and returns every stored item in order; if every block has at least batch_size slots nothing is lost while items fit in max_size. False as claims: a block shorter than batch_size loses nothing (three blocks of two items with batch_size 4 and capacity 40 lose two items); size is exact after deleting from a queue that received an oversize block.", "quantifier": "all histories of insert and delete_mins, all block lengths, keys, values, capacities and batch sizes", "why_tests_cant": "arbitrary histories and shapes; the buffer is reallocated by every insert", "anchors": ["xtructure/bgpq/bgpq.py: BGPQ.insert, BGPQ.delete_mins, BGPQ.size", "xtructure/bgpq/_insert.py: _bgpq_merge_buffer_jit, _bgpq_insert_jit", "xtructure/bgpq/_delete.py: _bgpq_delete_mins_jit"]}
{"id": "C65", "title": "What the slots returned by delete_mins can hold, padding included", "statement": "Every value handed back by delete_mins, in real and padding slots alike, is the value class's default or a value passed to some earlier insert; a queue that never received anything hands back defaults. False as a claim (docs/bgpq.md): padding slots carry default values (after inserting two items, the second delete_mins returns only padding, carrying the two values already handed out).", "quantifier": "all histories of insert and delete_mins with blocks of any length, all capacities, batch sizes, keys and values", "why_tests_cant": "arbitrary histories; provenance of every slot", "anchors": ["xtructure/bgpq/_delete.py: _bgpq_delete_mins_jit, _bgpq_delete_heapify_internal", "xtructure/bgpq/_insert.py: _bgpq_insert_jit", "docs/bgpq.md: delete_mins"]}
{"id": "C66", "title": "Printing an instance shows the right elements and every field", "statement": "str(x) and x.str(...) on a batched instance list the elements of the batch in row-major order, all of them when there are at most four, otherwise the first two, one '...' cell and the last two; a two-dimensional batch is drawn as a grid abbreviated per axis in which the cell of a shown row and column is the element with those indices; the batch shape is printed. A single instance is handed to the formatter (only x.str passes keyword arguments on); the default formatter prints the class name and then every field in declaration order, one line per line of its text, so two instances with the same text have the same text in every field. Unstructured instances print a fixed notice.", "quantifier": "all classes, batch shapes, instances, formatters and keyword arguments; all field names and texts, texts with line breaks included", "why_tests_cant": "all batch shapes of any rank and size; injectivity over all texts", "anchors": ["xtructure/core/xtructure_decorators/string_format.py: add_string_representation_methods, get_str, _custom_pretty_formatter", "xtructure/core/xtructure_decorators/annotate.py: MAX_PRINT_BATCH_SIZE, SHOW_BATCH_SIZE"]}
{"id": "C67", "title": "The legacy and the current unique_mask agree", "statement": "unique_mask_legacy, kept 'for comparison', and unique_mask return the same mask on keys of at most four 32-bit columns (two in x64 mode): with costs and no filled mask always, with a filled mask when no filled item costs +inf; without costs always when there is no mask, otherwise when no filled key is all ones. The legacy inverse array gives two items the same number exactly when their keys (and filled flags) are equal. False beyond: on a filled item of cost +inf, on an all-ones key after an unfilled item, and, for every key of five or more columns, on some other key the two differ.", "quantifier": "all batches, keys, masks and costs (not NaN)", "why_tests_cant": "agreement over every batch, mask and cost assignment; the differences are rare inputs a random benchmark never draws", "anchors": ["xtructure/core/xtructure_numpy/dataclass_ops/unique_ops/legacy_unique_ops.py: unique_mask_legacy", "xtructure/core/xtructure_numpy/dataclass_ops/unique_ops/optimized_unique_ops.py: unique_mask"]}
{"id": "C68", "title": "The priority queue does not depend on how ties are broken", "statement": "Switching off stable sorting (XTRUCTURE_BGPQ_SORT_STABLE), or changing merge back end between any two calls, never breaks the queue: if the block sort sorts and the merge of two sorted blocks is a sorted rearrangement of them (nothing assumed about equal keys or unsorted input), every history of inserts and delete_mins succeeds, refines the same bag specification, reports exact sizes and keeps the structural invariant; two histories with the same keys return the same keys, report the same sizes and store the same keys in the same slots whatever the back ends and values. Only which of several equal-key values comes out first may differ, and it does.", "quantifier": "all value types, sizes, legal histories, and all lawful back ends chosen separately for every call and call site", "why_tests_cant": "ranges over every possible tie-breaking behaviour of every back end at every merge of every history", "anchors": ["xtructure/bgpq/_utils.py: sort_arrays", "xtructure/bgpq/_constants.py: SORT_STABLE, merge_array_backend", "xtructure/bgpq/_merge.py: merge_sort_split", "xtructure/bgpq/_insert.py", "xtructure/bgpq/_delete.py"]}
{"id": "C69", "title": "Which class declarations work", "statement": "The decorator accepts a class exactly when no field is called from_tuple, replace, to_tuple or batch or starts with an underscore and the packing options are compatible with the declared bits. Instances of an accepted class can be made exactly when no field has the name of one of the library's properties (shape, dtype, structured_type, batch_shape, ndim, at, bytes, uint32ed, packed, <packed field>_unpacked) and, under validate=True, none is called check_invariants. Every field of every instance then reads back as given; every library property is available; a library method is available exactly when no field has its name; a batch method exactly when additionally the user did not define it. A user's own definition survives exactly when its name is not a library property or method. Redecorating a subclass keeps the base's descriptors: shape and default know only the base's fields, and default() raises if there is a new one.", "quantifier": "all field lists, user-defined attributes, decorator options and values", "why_tests_cant": "ranges over all names a user may choose for fields and methods and all combinations of options", "anchors": ["xtructure/core/xtructure_decorators/__init__.py: xtructure_dataclass", "xtructure/core/dataclass.py: _Dataclass.__call__", "xtructure/core/field_descriptors.py: get_field_descriptors", "xtructure/core/xtructure_decorators/method_factory.py: add_xnp_instance_methods", "xtructure/core/xtructure_decorators/bitpack_accessors.py: add_bitpack_accessors"]}
{"id": "C70", "title": "isclose, allclose and can_cast", "statement": "For two batches of one class and shape and any closeness test on numbers, xnp.isclose returns an instance of boolean arrays that is 1 exactly where the two entries are close, and the element at any batch position is isclose of the two elements there. xnp.allclose never raises and is True exactly when every entry of every field is close; equivalently when every pair of elements is allclose; equivalently when isclose is 1 everywhere (a batch without elements and a class without fields give True, where == raises on the latter). It inherits reflexivity and symmetry from the test on numbers, not transitivity. xnp.can_cast(x, dtype) is True exactly when the rule allows every field and depends on the class alone; against an instance with other dtypes it compares field by field. Under the safe rule it allows exactly the casts whose target dtype contains every number of the source, except that 64-bit integers to float64 are allowed although numbers are lost; when it is True, astype to an integer or boolean dtype keeps every entry of every valid instance, and when it is False some value is lost.", "quantifier": "every class, batch shape, pair of instances, closeness test, casting rule, pair of standard dtypes and number", "why_tests_cant": "The claims range over all class shapes, all closeness tests and all numbers of all dtypes; the int64 to float64 exception shows only above 2^53.", "anchors": ["xtructure/core/xtructure_numpy/dataclass_ops/comparison_ops.py: isclose, allclose", "xtructure/core/xtructure_numpy/dataclass_ops/type_ops.py: can_cast, astype"]}
{"id": "C71", "title": "Assembling a batch from nested lists of instances", "statement": "For instances whose fields are all scalars, xnp.block of a nested list joins the lists level by level: the innermost lists along the last batch axis, the lists around them along the axis before, and so on. In a grid of two-dimensional batches whose rows have heights h_i and columns widths w_j, element (y, x) of the block in row i and column j is element (sum of the heights above + y, sum of the widths to the left + x) of the result, whose batch shape is the two sums; a list of 1-dimensional batches is their concatenation; a matrix (or list) of single instances becomes the batch with those elements at those positions, because blocks with fewer batch axes than lists around them get leading axes of size 1. Blocks at different depths and empty lists raise. For classes with a field that is itself an array the claim fails: that field is joined along its own axes and the result is no instance. A tuple is not joined: block of a tuple of instances (or of nested lists of them) returns, without an error, an instance whose every field is the tuple of what block gives for its members, so nothing is assembled and the fields are no arrays; a tuple inside a list raises. This refutes that any nested sequence is assembled.", "quantifier": "every class with scalar fields (nested classes included), every nesting depth, every number and size of blocks", "why_tests_cant": "Depth, number and sizes of the blocks and the class are unbounded; the position claim holds for every element.", "anchors": ["xtructure/core/xtructure_numpy/dataclass_ops/batch_ops.py: block"]}
{"id": "C72", "title": "The dtype that arrays of different dtypes are brought to, and what converting a number does", "statement": "xnp.result_type (and implicitly concat, stack, where, ==) depends only on which dtypes occur; it is a float exactly when a float occurs or uint64 meets a signed integer, and then the widest float that occurs; otherwise it is the smallest integer dtype that represents every number of every argument, except that without x64 uint32 with a signed dtype gives int32. Nested calls agree with one call unless uint64 occurs (with uint64, int8 and float32 the result depends on the grouping). Converting a number (astype) gives the same number whenever the target dtype has it, otherwise, for floats, the nearest one (ties to the even pattern), infinity from half a unit beyond the largest number, preserves order, keeps infinities and NaN; float to integer drops the fraction, integer to integer is modulo 2^w, and to bool only 0 becomes False. There and back is the identity when the target represents all numbers of the source.", "quantifier": "every list of dtypes, both settings of jax_enable_x64, every number of every dtype", "why_tests_cant": "The 64-bit dtypes alone have 2^64 numbers each; nearest-number and order claims quantify over pairs of them.", "anchors": ["xtructure/core/xtructure_numpy/dataclass_ops/type_ops.py: result_type, astype"]}
{"id": "C73", "title": "Operations on instances whose arrays have different dtypes", "statement": "Instances of one class may differ in the dtypes of their arrays (the result of astype, of where with a number, or of arithmetic). concat, stack, where and equal of such instances behave, field by field, as on instances converted to the field's common dtype (C72), and the result has those dtypes; result_type returns exactly these dtypes. == never raises and is True exactly when all pairs of converted entries are the same number; when the common dtypes represent all numbers of both it compares the numbers themselves, otherwise it can call different numbers equal and is not transitive. != is its negation. .at[...].set(value) keeps the dtypes of the target and converts the value to them. pad converts to the declared dtypes when it adds anything and returns the instance unchanged, with its own dtypes, when it adds nothing. For instances with the same dtypes all of this is the operation without conversion.", "quantifier": "every class (nested included), every batch shape, every assignment of dtypes to the arrays, every content, every number of instances, both x64 settings", "why_tests_cant": "Class, batch shapes, dtypes and contents are unbounded and independent.", "anchors": ["xtructure/core/xtructure_numpy/dataclass_ops/batch_ops.py: concat, stack, pad", "xtructure/core/xtructure_numpy/dataclass_ops/logical_ops.py: where", "xtructure/core/xtructure_numpy/dataclass_ops/comparison_ops.py: equal", "xtructure/core/xtructure_numpy/dataclass_ops/type_ops.py: astype, result_type", "xtructure/core/xtructure_decorators/ops.py: __eq__, __ne__", "xtructure/core/xtructure_decorators/indexing.py: .at[].set"]}
{"id": "C74", "title": "Inserting keys whose dtype is not the queue's", "statement": "BGPQ.insert accepts keys of another dtype exactly when the queue's dtype is the common dtype of both (C72): a queue with float keys accepts bool, every integer dtype and every float dtype that is not wider; keys of a wider float dtype raise, whatever the queue holds. Through every history the arrays keep the dtype they were built with. An accepted insertion behaves as inserting the keys converted (rounded) to the queue's dtype, and converting never inverts the order of two keys; so every history meets the priority-queue specification (C57) on the converted keys. Keys that convert to infinity are lost: in the default float16 queue exactly the integer keys of absolute value 65520 and more; different keys that convert to one number are tied and may come out in the wrong order.", "quantifier": "every history, every mix of key dtypes, every key, every capacity and batch size, both x64 settings", "why_tests_cant": "Dtypes, keys and histories are unbounded; rounding ties and overflow are single points in 2^64.", "anchors": ["xtructure/bgpq/_insert.py: _bgpq_insert_jit, _bgpq_merge_buffer_jit, _bgpq_insert_heapify_internal", "xtructure/bgpq/_delete.py: _bgpq_delete_heapify_internal", "xtructure/bgpq/_merge.py: merge_sort_split", "xtructure/bgpq/_utils.py: sort_arrays"]}
{"id": "C75", "title": "A hash table given items whose dtypes are not the declared ones", "statement": "HashTable checks no dtypes: items are hashed and deduplicated by their own bytes, compared with stored items by == (which promotes), and converted to the declared dtypes when they are written. If all items given are instances of one set of dtypes whose entries (no NaN, no -0.0) are numbers of the declared dtypes and of the dtype the two are compared in, then through every history of insert and parallel_insert the table is a set of the given items: a lookup finds an item exactly when it was reported inserted, at its one index, which returns the item converted to the declared dtypes; size counts them; batches add exactly the union and the default backend loses nothing when there is room. This covers all items when the declared dtypes have all numbers of the given ones. Items of the declared and of other dtypes can be mixed when conversion keeps their bytes. Outside this it fails: equal numbers with other bytes are stored twice and do not find each other; an item changed by the conversion is never found again and is inserted on every attempt.", "quantifier": "every class and every choice of other dtypes for its fields, every item and history, every capacity, bucket size and backend, both x64 settings", "why_tests_cant": "The dtypes, the entries and the histories are unbounded; the numbers that are not kept are single points.", "anchors": ["xtructure/hashtable/insert.py: _hashtable_insert_jit, _hashtable_parallel_insert_jit, _scatter_set_xtructurable_drop", "xtructure/hashtable/lookup.py: _hashtable_lookup_jit, _hashtable_lookup_parallel_jit", "xtructure/core/xtructure_decorators/indexing.py: set", "xtructure/core/xtructure_decorators/ops.py: __eq__", "xtructure/core/xtructure_decorators/hash.py"]}
{"id": "C76", "title": "take and take_along_axis with a mode and a fill value", "statement": "xnp.take of an instance along a batch axis (or, for classes whose fields are scalars per element, of the flattened batch) reads, for every index and in every mode, whole elements: mode None or 'fill' counts negative indices from the end and gives, for any other index, an element whose every field is the given fill_value or JAX's default for the dtype (True, the largest unsigned, the smallest signed integer, NaN); 'clip' reads the first element for every negative and the last for every too large index; 'wrap' reads modulo the axis length. fill_value is ignored in the other two modes. A non-empty take from an empty axis raises. take_along_axis with a mode or a fill_value does the same per position (negative indices count from the end in every mode) but only for classes whose fields are all scalars per element; for any other class it raises, also when the mode named is the default one. With a mode or a fill value, batch and indices must have the same number of axes and are broadcast against each other along the other axes (a batch axis of size 1 is repeated, which raises without a mode); sizes that differ and are not 1 raise. With axis=None it gathers from the flattened batch, while without a mode or fill value axis=None raises.", "quantifier": "every class, instance, batch shape, axis, index array, mode and fill value", "why_tests_cant": "tests take two or three in-range indices in the default mode", "anchors": ["xtructure/core/xtructure_numpy/__init__.py: take, take_along_axis", "xtructure/core/xtructure_numpy/dataclass_ops/batch_ops.py: take, take_along_axis"]}
{"id": "C77", "title": "Queue, Stack and indexed updates given items of other dtypes", "statement": "A Queue, a Stack, inst.at[idx].set(values) and inst.at[idx].set_as_condition(cond, values) accept items of the value class whose arrays have other dtypes than declared. No call raises for that reason; what is stored, and later dequeued, popped, peeked or read, is the item with every field converted to its declared dtype, in first-in first-out (last-in first-out, first-true-wins) order, through every legal history mixing dtypes. An entry whose number the declared dtype has keeps its number, an infinity stays one in a float field, and items of the declared dtypes come back unchanged. Items with two or more batch axes are refused whatever their dtypes.", "quantifier": "every class, capacity, dtypes of every call's items and legal history of calls; every index array and condition", "why_tests_cant": "tests enqueue and push items of the declared dtypes only", "anchors": ["xtructure/queue/queue.py", "xtructure/stack/stack.py", "xtructure/core/xtructure_decorators/indexing.py: _Updater", "xtructure/core/xtructure_numpy/array_ops.py: _update_array_on_condition"]}
{"id": "C78", "title": "The priority queue given values of other dtypes", "statement": "BGPQ.insert takes a block of values whose fields have other dtypes than declared exactly when, for every field, the declared dtype is JAX's common dtype of the two; otherwise it raises, whatever the queue holds. A history of accepted insertions and deletions is the history of a priority queue of (key, converted value) pairs, and everything returned has the declared dtypes. make_batched converts the values to the declared dtypes when it pads (so a padded block is always accepted) and leaves a full block as it is.", "quantifier": "every value class, queue size, history of insertions with values of any dtypes and deletions, both reorder modes", "why_tests_cant": "tests insert values of the declared dtypes; acceptance depends on dtypes and on whether the block was padded", "anchors": ["xtructure/bgpq/_insert.py", "xtructure/bgpq/_merge.py: _gather_sorted_values", "xtructure/bgpq/bgpq.py", "xtructure/core/xtructure_numpy/dataclass_ops/batch_ops.py: pad"]}
{"id": "C79", "title": "Settings in environment variables change how, not what", "statement": "The variables XTRUCTURE_BGPQ_*, XTRUCTURE_HASHTABLE_*, XTRUCTURE_HASH_* and XTRUCTURE_AGG_BITPACK_* choose sorting, merging, value packing, kernel sizes, deduplication and hashing strategies. Under every environment that is accepted, on every platform, a priority queue whose sort is stable goes through exactly the same states and returns the same keys and values, call by call, as with no variable set; with an unstable sort it returns the same keys and sizes. Hash tables of programs asking for the same items answer every lookup alike, and an instance has one hash unless the packed form is asked for. Every environment whose variables have the documented words (in any case, with blanks around where they are removed) and numbers is accepted, unknown merge words are refused, every array the fused kernel gets has a power-of-two width, and x.packed is the same under every accepted setting. Every variable selects exactly what its documented words say: which of the three merges is used where (the fused one only on a GPU, asked for or, in automatic mode, for blocks of at least the threshold, which must be positive), the block size, how values are cut, which hash form is computed; a number is what Python's int() reads: blanks, a sign, groups of digits joined by single underscores, blanks.", "quantifier": "every environment (any strings), platform, class (field sizes), queue size, block of values and history of calls", "why_tests_cant": "the settings multiply to thousands of combinations, most of which need a GPU or TPU; tests run a handful on CPU with no variable set", "anchors": ["xtructure/bgpq/_constants.py", "xtructure/bgpq/_merge.py", "xtructure/bgpq/_utils.py: _use_kv_backend", "xtructure/bgpq/merge_split/parallel.py: merge_arrays_parallel_kv, _parse_*", "xtructure/hashtable/hash_utils.py: _parse_bool_env, _parse_int_env, _get_dedupe_mode", "xtructure/hashtable/insert.py", "xtructure/core/xtructure_decorators/hash.py"]}
{"id": "C80", "title": "The packing schema tells where every bit is, and single fields can be read", "statement": "bitpack_schema() exists exactly for classes whose leaves all declare bits (nested fields scalar); its fields are the leaves in declaration order with their bits, shapes and dtypes, each starting at the bit where the one before ends; total_bits, payload_bytes, words_all_len, words_len, tail_bytes and storage_bytes are the sizes of the packed form (at most one byte above the payload). In x.packed, bit j of entry k of a leaf is bit bit_offset + k*bits + j of the element's bytes (words little-endian, then tail) and every other bit is zero. p.unpack_field(name) is the field of p.unpacked of that (dotted) name, of p.as_original() under dtype_policy='declared', for every packed batch; with indices in range it is the listed entries; slices with non-negative start, stop within the field and positive step select what Python selects; unknown names and policies raise.", "quantifier": "every bit-declared class, batch shape, instance of any dtypes, packed batch (also assembled ones), field, index list and slice", "why_tests_cant": "layouts and field/offset combinations are unbounded; a wrong offset shows only for particular widths straddling words; tests read a couple of fields of one class", "anchors": ["xtructure/core/xtructure_decorators/aggregate_bitpack/__init__.py: bitpack_schema, unpack_field, _normalize_indices, _decode_field_all", "xtructure/core/xtructure_decorators/aggregate_bitpack/spec.py: _AggLeafSpec, _build_agg_spec, _compute_word_tail_layout"]}
{"id": "C81", "title": "Whole-instance packing of any dtypes keeps integer parts", "statement": "x.packed of a bit-declared class converts every leaf to uint32 by value before packing. For an instance of any dtypes (also unvalidated ones): packing succeeds, all pack backends give the same result, packing is element-wise, .unpacked holds at each place the integer part of the entry modulo 2^bits (negative integers wrap; floats below -1, from 2^32 on, infinite or NaN are platform-defined but stay b-bit numbers), and .as_original() that number in the declared dtype. The round trip is the identity on instances whose entries are whole numbers of 0..2^bits-1 and, for classes whose dtypes hold all of these, only on them.", "quantifier": "every bit-declared class (floats, signed and unsigned integers, booleans), batch shape, backend and instance of any dtypes", "why_tests_cant": "tests pack small unsigned values; fractions, negative values, infinities and each bit width/dtype pair are unbounded", "anchors": ["xtructure/core/xtructure_decorators/aggregate_bitpack/__init__.py: packed, as_original, unpack", "xtructure/core/xtructure_decorators/aggregate_bitpack/kernels.py"]}
{"id": "C82", "title": "What shape, dtype and their companions answer, and when they go stale", "statement": "For a structured instance, x.shape is the batch shape followed, for every field, by exactly what the class declares (nested fields recursively), so two structured instances of a class have equal x.shape exactly when their batch shapes are equal; for any other instance an array field shows its declared shape if the array's shape ends in it and its whole shape otherwise. x.dtype shows the dtypes the arrays actually have. Whatever questions (shape, dtype, structured_type, batch_shape, len, ndim) are asked, of an instance or of instances nested in it, mixed with x.replace, passes through jax.tree_util, copies and pickling, every answer is the right one for the data at that moment; attribute assignment keeps this as long as neither the instance assigned to nor one containing it has been asked since it was last rebuilt. Otherwise all six answers go stale, and copies inherit the stale answers.", "quantifier": "all classes (nested to any depth), instances, and histories of questions, assignments, replacements, rebuilds and copies of any length", "why_tests_cant": "the claim ranges over all nestings, array shapes and interleavings of reads and writes", "anchors": ["xtructure/core/xtructure_decorators/shape.py: add_shape_dtype_len", "xtructure/core/dataclass.py: _INTERNAL_CACHE_KEYS, _getstate, _setstate, _replace, _dataclass_unflatten"]}
{"id": "C83", "title": "Looping over an instance", "statement": "[x[k] for k in range(len(x))] and reversed(x) give every row of a batch exactly once. A plain Python loop over a non-empty batch never ends: its first len(x) items are the rows and all later ones repeat the last row; so list(x), f(*x), xnp.vstack(x) and x.vstack() have no result, unpacking into any number of names raises, zip(x, l) is as long as l, and v in x never answers False. The loop over an empty batch, or over a single instance with a scalar field, ends at once.", "quantifier": "all classes, batch shapes, instances and numbers of steps", "why_tests_cant": "non-termination and agreement with the rows for every length cannot be observed by finite tests", "anchors": ["xtructure/core/xtructure_decorators/indexing.py: add_indexing_methods (getitem)", "xtructure/core/xtructure_decorators/shape.py: get_len", "xtructure/core/xtructure_decorators/method_factory.py: _make_method", "xtructure/core/xtructure_numpy/dataclass_ops/batch_ops.py: vstack, hstack, dstack, column_stack"]}
{"id": "C84", "title": "Hashing and hash tables in packed mode, for fields of any dtype", "statement": "With XTRUCTURE_HASH_AGG_MODE=packed, x.uint32ed of an instance is ceil(bits/32) words, whichever backend packs it, and two instances (of the declared or other dtypes) have the same words, bytes and hashes exactly when all their entries have the same integer parts modulo 2^bits; instances of the same dtypes that are == always do, 0.0 and -0.0 included. A hash table given items of any dtypes whose entries are whole numbers that fit their bits and that the declared dtypes have is a set of their numbers: an item is found exactly when one with the same numbers was inserted, at its index, where an item == to it is stored. Single insertions and lookups are right for items of any values. A batch insertion is not: of two unequal items with the same words it keeps one and returns its index for the other.", "quantifier": "all packable classes, instances, packing backends, dtypes, seeds, histories of operations (every insertion backend, deduplication mode and mask)", "why_tests_cant": "ranges over all values of all dtypes and all histories; collisions of words only appear for entries outside the declared bits", "anchors": ["xtructure/core/xtructure_decorators/hash.py: use_agg_packed, _words_all_from_packed_instance, _byterize_fn, _to_uint32_fn", "xtructure/core/xtructure_decorators/aggregate_bitpack/__init__.py: _pack_instance", "xtructure/hashtable/insert.py: _hashtable_parallel_insert_jit", "xtructure/hashtable/hash_utils.py: _compute_unique_mask_from_hash_pairs"]}
{"id": "C85", "title": "Combining two instances leaf by leaf, and the paths of leaves", "statement": "jax.tree_util.tree_map(f, a, b) on instances and containers succeeds exactly when a and b are alike: same class, same attributes (in any order, the library's caches apart), equal static values, and alike nested instances; being alike is the same as having equal tree definitions and is an equivalence. The result has the declared fields, static ones kept, each array field f of the two arrays and each nested instance the combination of the two. An attribute attached to only one of the two makes the call raise in both orders, until each has gone through one tree_map. tree_flatten_with_path lists the same leaves in the same order under distinct paths, and lists a path with a leaf exactly when getattr along the path (not through static fields or caches) reads that leaf.", "quantifier": "all classes, nesting depths, instances (with any attached attributes), and functions", "why_tests_cant": "ranges over all class shapes, attribute dictionaries in any order and nesting depths", "anchors": ["xtructure/core/dataclass.py: register_dataclass_type_with_jax_tree_util, flatten_with_keys, _flatten_with_path", "xtructure/core/dataclass.py: base_dataclass"]}
{"id": "C86", "title": "An indexed update of a batch changes whole rows or nothing", "statement": "inst.at[idx].set(values), idx an integer array of any shape and values an instance of the same class of any batch shape: if that batch shape broadcasts (numpy rules) to the addressed one, every addressed row becomes, in all of its fields, the row of values broadcast to one of the entries that address it, and every other row is unchanged; otherwise nothing at all changes and nothing is raised. The same for inst.at[indices].set_as_condition(condition, values) with the first true update of each row; conditions and indices of different shapes also change nothing, where update_on_condition raises. With an array instead of an instance each field is updated if the array broadcasts to it and silently kept otherwise (also by set_as_condition, where the first true update of a row wins and a row without one is kept). The claims that rows stay whole for arrays as values, and for a single instance with tensor fields, are refuted. With an instance of another class as values nothing is raised and exactly the nested fields whose class the values are an instance of (the outermost ones) are updated, as if they had been updated themselves; no other array changes. So rows can be half replaced by such a value, which refutes that a value of the wrong class is refused or ignored.", "quantifier": "all classes, batch shapes, index, condition and value arrays and instances", "why_tests_cant": "ranges over all broadcastable and non-broadcastable shape combinations, nesting and index collisions", "anchors": ["xtructure/core/xtructure_decorators/indexing.py: .at[...].set, .set_as_condition", "xtructure/core/xtructure_numpy/array_ops.py: _update_array_on_condition", "xtructure/core/xtructure_numpy/dataclass_ops/logical_ops.py: update_on_condition"]}
{"id": "C87", "title": "Slicing and masking a batch is slicing and masking the list of its rows", "statement": "For a batched instance x, x[start:stop:step] (step not 0) is the batch of exactly the rows Python's slice selects, in that order, in every field: x[:k], x[k:], x[-k:], x[::-1] give the first k, the remaining, the last k and the reversed rows, and concatenating x[:k] and x[k:] gives x back; a step of 0 raises. x.at[start:stop:step].set(values) replaces exactly the selected rows, the j-th by the j-th row of the values (broadcast), and leaves all others; a slice that was written reads back, writing a slice back where it was read changes nothing, and values that do not fit (or a step of 0) silently change nothing. x[mask] keeps the rows at which a boolean array is true, in row-major order, x.at[mask].set replaces exactly these, and a mask of another shape raises. x[..., i] is the i-th entry of the last batch axis for classes with scalar fields; with tensor fields that is refuted: it takes the last axis of every field, and can return a well-formed instance that is no row.", "quantifier": "all classes, batch shapes, batches, starts, stops, steps, masks and values", "why_tests_cant": "ranges over all slice triples including negative and out-of-range ones, all lengths, all nested classes and all masks", "anchors": ["xtructure/core/xtructure_decorators/indexing.py: __getitem__, _Updater.set"]}
{"id": "C88", "title": "Calls that mix instances with arrays or instances of different classes raise", "statement": "If one argument of xnp.equal, not_equal, isclose, allclose, broadcast_arrays or result_type is an instance, the call returns only if all arguments are instances of the same class with the same nesting (classes with the same fields are different classes), and the result is then the jax function field by field in that structure; it does return when the jax function accepts the arrays of every field. vstack, hstack, dstack, column_stack and concat/concatenate with axis=None of a list take all its members as instances or all as arrays; an empty or mixed list raises, in whatever order. xnp.where and update_on_condition with an instance return only if the first operand is an instance and the other one is an instance of the same structure, used field by field, or a single value, used in every field. can_cast takes an instance of the same structure or one dtype for all fields. False as a claim: where of two instances of a class without fields returns one (it raises, update_on_condition does not).", "quantifier": "all nested classes and containers, all numbers of arguments, all jax functions of arrays (as a parameter), all contents", "why_tests_cant": "ranges over all class structures, mixtures and positions in the argument list", "anchors": ["xtructure/core/xtructure_numpy/__init__.py", "xtructure/core/xtructure_numpy/dataclass_ops/comparison_ops.py", "xtructure/core/xtructure_numpy/dataclass_ops/logical_ops.py", "xtructure/core/xtructure_numpy/dataclass_ops/type_ops.py", "xtructure/core/type_utils.py"]}
{"id": "C89", "title": "A flat batch is the list of its rows", "statement": "For a batch x of shape (n,), write L for the list x[0], ..., x[n-1]. Along axis 0, concat of batches gives the concatenation of their lists, and is associative; stack of single instances gives exactly these rows; repeat(r) repeats each row r times in place, repeat with counts each its own number of times; tile(r) gives L r times over (classes with scalar fields); flip gives L reversed; roll(s) moves the last s mod n rows to the front; take gives the named rows, counting from the end for negative indices, and a row of fill values where there is none; split into k equal sections gives k batches of n/k rows whose lists joined are L; constant padding (x, y) puts x default instances in front of L and y behind. x[p] for a permutation p has the same rows with the same multiplicity, none torn across fields; if p sorts a key, the rows of x[p] are L sorted by that key. x.at[p].set(v) for distinct positions p puts v's rows at these and keeps the others; x[p] then is v, and z.at[p].set(x[p]) is x if p is a permutation. where chooses row by row (scalar fields). Two batches of a class with the same rows are identical.", "quantifier": "all classes, batch sizes, contents, indices, counts, shifts, permutations and keys", "why_tests_cant": "ranges over all classes, all sizes and all permutations", "anchors": ["xtructure/core/xtructure_numpy/dataclass_ops/batch_ops.py", "xtructure/core/xtructure_numpy/dataclass_ops/shape_ops.py", "xtructure/core/xtructure_numpy/dataclass_ops/spatial_ops.py", "xtructure/core/xtructure_decorators/indexing.py"]}
{"id": "C90", "title": "A best-first search neither loses nor repeats a state", "statement": "Keep a cost per slot of a hash table and a priority queue of slots. A step either offers a batch (insert it with parallel_insert and the costs as unique key, take over the costs that are smaller than the known ones with update_on_condition, insert exactly these improvements with their slots into the queue), or pops a block with delete_mins. Start from empty structures and take any steps, in any order, such that the queue has room and nothing is lost from the table (C62, C63). Then every item offered with a finite cost is stored, and the pair of its best cost and its slot is in the queue or has been handed out; no pair is ever there or handed out twice; every pair in the queue or handed out is the slot of a stored item with a finite cost that was offered for it, never below its best one; and once the queue reports size 0, every such item has been handed out with the smallest cost offered for it. If moreover no offered cost is smaller than a key that was already handed out (costs that grow along paths), the keys come out in order, and the first time a slot is handed out it comes with the smallest cost ever offered for its item, before or after; any later pair of it has a larger key. If the queue does overflow, states may be lost, but the pairs in it and handed out are still distinct, belong to stored items and carry offered costs, the cost table is still that of C63, and the order is kept. The pairs in the queue and those handed out are together never more than the inputs that were offered unmasked with a finite cost; so a queue whose total_size is at least that number, or less by less than batch_size, never overflows.", "quantifier": "all item classes, table and queue sizes, batches, costs, fill masks, backends and interleavings of pushes and pops", "why_tests_cant": "ranges over all histories of three structures together", "anchors": ["xtructure/hashtable/insert.py", "xtructure/bgpq/bgpq.py", "xtructure/bgpq/_insert.py", "xtructure/bgpq/_delete.py", "xtructure/core/xtructure_numpy/array_ops.py"]}
{"id": "C91", "title": "A best-first search on a graph finds the shortest paths", "statement": "Run the search of C90 on a graph: the finite costs that are offered are those of start states, or the cost of a pair that was handed out plus the weight of a move out of table[slot] of that pair. Then every cost the search knows (in the cost table, in the queue, handed out) is the cost of a path from a start state to that state, even if the queue overflows. Now let the queue have room, all start states be offered, every pair that was handed out with what is still the best known cost be expanded (all its moves offered, or something cheaper for the same state; stale pairs may be skipped), and let costs grow: a path that is continued does not get cheaper, a cheaper prefix not dearer (any rounded addition of weights that are not negative). Then for every path of finite cost to a state, either the state is stored with a best cost not above the path's, or the queue holds a key not above it. So as soon as no key in the queue is below the best known cost of a stored state, that cost is the smallest cost of any path to it (the search for a goal may stop there, whatever the block size); and once the queue reports size 0, every state with a path of finite cost is stored and was handed out with the smallest cost of all its paths, and a stored state without such a path still has cost infinity. With a block size above 1 the first pair handed out for a state need not be its shortest one (refuted). But if everything handed out is expanded before the next block is taken, the pairs with the least key of that block have the shortest distance of their state if it was not handed out before; with a block size of 1 this is Dijkstra's algorithm. A*: if the offered keys are path length plus a consistent estimate (exact integers), the same holds with the estimate subtracted: a stored state whose key is not above any key in the queue was reached by a shortest path. If each offered cost comes with its parent (the handed out slot and the move, kept as data beside the cost), then following the parents from any stored state of finite cost ends at a start state (never in a circle, even with moves of weight 0 and with a queue that overflows), and going back over the recorded moves is a path that costs at most what is recorded: a cheapest one where the recorded cost is the smallest. What a search answers once the queue is empty depends on the graph alone: two searches with different sizes, hash settings, offers, order of expansion, data or consistent estimates store the same states at a finite cost, and give each the same cost (after subtracting the estimate). The condition that the queue has room holds if total_size is at least the number of inputs offered unmasked with a finite cost. So a search for a goal may stop with a stored goal whose best known cost is not above any key in the queue and not above the key of any goal handed out: no path to any goal is cheaper (A*: if the estimate of goals is 0); if the queue gets empty without a goal handed out, no goal has a path of finite cost. False as a claim: the stop rule with negative weights.", "quantifier": "all graphs, item classes, weights and cost additions, table and queue sizes, batches, backends and interleavings", "why_tests_cant": "ranges over all graphs, paths and histories of three structures together", "anchors": ["xtructure/hashtable/insert.py", "xtructure/bgpq/bgpq.py", "xtructure/bgpq/_insert.py", "xtructure/bgpq/_delete.py", "xtructure/core/xtructure_numpy/array_ops.py"]}
