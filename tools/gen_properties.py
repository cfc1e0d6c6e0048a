import json
P=[]
def p(title, statement, quantifier, why, anchors):
    P.append(dict(id="C%02d"%(len(P)+1), title=title, statement=statement, quantifier=quantifier, why_tests_cant=why, anchors=anchors))
U="xtructure/"
# ---- Queue
p("Queue is a FIFO list",
  "For every sequence of enqueue (single item or batch), dequeue(n), peek(n), indexing and clear in which the number of items enqueued since the last clear never exceeds max_size and no dequeue/peek/index reaches past the live items, every observable result (returned items in order, size, emptiness) equals that of a plain list with append at the back and removal at the front.",
  "every max_size (< 2^31), every item type and value, every finite operation history satisfying the capacity and occupancy side conditions",
  "the claim is over all histories and all capacities; tests sample a few short scripts",
  [U+"queue/queue.py: Queue.build/enqueue/dequeue/peek/clear/size/__getitem__"])
p("Queue overflow drops exactly the excess and corrupts nothing",
  "An enqueue that would pass the end of the backing array stores exactly the prefix of the batch that fits, leaves every item already stored (live or not) unchanged, and raises no error; the space freed by earlier dequeues is NOT reused until clear, and `size` still counts the dropped items. In particular 'an enqueue while size < max_size is never lost' is false.",
  "every queue state reachable by any history, every batch",
  "needs every combination of head, tail and batch length at and beyond the boundary",
  [U+"queue/queue.py: Queue.enqueue, Queue.size"])
p("Stack is a LIFO list",
  "For every sequence of push (single/batch), pop(n), peek(n) and indexing in which the size never exceeds max_size and no pop/peek takes more than size items, every observable result equals that of a plain list with push at the end and removal of the last n items (returned in bottom-to-top order); peek does not change the stack and push-then-pop of the same batch restores the stack contents.",
  "every max_size (< 2^31), every item type, every finite history satisfying the side conditions",
  "over all histories and capacities",
  [U+"stack/stack.py: Stack.build/push/pop/peek/size/__getitem__"])
p("Stack overflow leaves stored items intact",
  "A push past max_size stores exactly the prefix that fits and leaves all items below unchanged, while size grows by the full batch; after popping the same number of items the original contents are intact.",
  "every reachable stack, every batch length",
  "boundary behaviour for every size/batch combination",
  [U+"stack/stack.py: Stack.push, Stack.pop"])
p("Removing from an empty queue or stack",
  "Dequeue/pop of more items than are present is not detected: the reported size becomes the unsigned 32-bit wrap-around of (size - n), so 'size is never larger than the number of items added' is false exactly when a removal exceeds the live count.",
  "every state and every n",
  "requires characterising all under-flowing states, including wrap-around arithmetic",
  [U+"queue/queue.py: Queue.dequeue, Queue.size", U+"stack/stack.py: Stack.pop"])
# ---- BGPQ
p("Block merge keeps the smaller half, loses nothing",
  "The merge/split step used by the heap, applied to two sorted key blocks with their values, returns the n smallest (key,value) pairs in ascending key order and the remaining pairs in ascending order; together they are a permutation of the input pairs, so no value ever gets separated from its key.",
  "all block lengths, all sorted key blocks, all values, all tie patterns",
  "all lengths and tie patterns",
  [U+"bgpq/_merge.py: merge_sort_split", U+"bgpq/merge_split/split.py: merge_sort_split_idx", U+"bgpq/_utils.py: sort_arrays"])
p("All merge backends agree",
  "The sort-based, the sequential two-pointer, and the parallel merge-path implementations of the indexed merge return the same keys and the same source indices for every pair of sorted inputs (ties taken from the first input, each side in order), for every block width of the parallel kernel.",
  "all input lengths including 0, all sorted inputs with ties, all positive block sizes, all partitions of the output among blocks",
  "per-block results are assembled from independent programs; equality must hold at every diagonal for every tie pattern",
  [U+"bgpq/merge_split/split.py: merge_sort_split_idx", U+"bgpq/merge_split/loop.py: merge_arrays_indices_loop, merge_indices_kernel_loop", U+"bgpq/merge_split/parallel.py: merge_arrays_parallel, merge_parallel_kernel", U+"bgpq/merge_split/common.py: binary_search_partition"])
p("Merge-path partition is correct and consecutive blocks are disjoint",
  "For every output offset k the partition search terminates and returns how many of the first k merged elements come from the first input; successive offsets give non-overlapping ranges that together cover both inputs.",
  "all sorted inputs, all k between 0 and n+m",
  "binary-search boundary conditions for all lengths and ties",
  [U+"bgpq/merge_split/common.py: binary_search_partition"])
p("BGPQ structural invariant survives every history",
  "After any sequence of insert (of blocks padded with +inf) and delete_mins on a freshly built queue, every stored block is sorted, every block's largest key is at most each child's smallest key, all used blocks except possibly the root are completely filled, all unused blocks are +inf, the buffer is sorted and never below the root.",
  "every branch count, every batch size >= 1, every finite history of inserts and deletes, including overflow",
  "an inductive invariant over unbounded histories and heap shapes",
  [U+"bgpq/bgpq.py: BGPQ.build, insert, delete_mins", U+"bgpq/_insert.py: _bgpq_insert_heapify_internal, _bgpq_insert_jit", U+"bgpq/_delete.py: _bgpq_delete_heapify_internal, _bgpq_delete_mins_jit", U+"bgpq/_merge.py: merge_buffer"])
p("delete_mins returns the batch_size smallest items",
  "After any history, delete_mins returns in ascending order a block of batch_size items such that every returned key is <= every key that remains, and returned plus remaining items are exactly the items that were stored (as key/value pairs), with +inf padding only when fewer than batch_size items were stored.",
  "every reachable queue",
  "quantifies over all histories and key distributions",
  [U+"bgpq/_delete.py: _bgpq_delete_mins_jit, _bgpq_delete_heapify_internal, _make_empty"])
p("BGPQ loses nothing until it is full",
  "As long as the queue is not full, insert adds exactly the finite-key pairs of the block to the stored multiset of (key,value) pairs, and delete_mins removes exactly the returned pairs: nothing is lost, duplicated, or re-associated with another value.",
  "every history that never inserts into a full heap",
  "multiset equality over unbounded histories",
  [U+"bgpq/_insert.py: _bgpq_insert_jit", U+"bgpq/_delete.py: _bgpq_delete_mins_jit", U+"bgpq/_merge.py: merge_buffer"])
p("BGPQ reported size is the number of stored items",
  "queue.size always equals the number of finite-key items currently stored in heap blocks and buffer.",
  "every reachable queue, including after overflow",
  "size is maintained incrementally from block counters, correctness depends on the global invariant",
  [U+"bgpq/bgpq.py: BGPQ.size", U+"bgpq/_insert.py", U+"bgpq/_delete.py"])
p("Draining a BGPQ sorts",
  "Inserting any items (fewer than the capacity) and then calling delete_mins until empty yields all of them, in globally non-decreasing key order, and needs exactly ceil(count/batch_size) calls.",
  "every insert sequence, any interleaving of partial blocks",
  "all inputs, all block boundaries",
  [U+"bgpq/_delete.py: _bgpq_delete_mins_jit"])
p("What a full BGPQ evicts",
  "Inserting into a full queue never evicts any of the batch_size smallest items, evicts at most batch_size items, and stored plus evicted items are exactly the old items plus the new ones. It does NOT guarantee that the evicted items are the largest ones: smaller items can be dropped while larger ones stay.",
  "every full reachable queue and every inserted block",
  "all heap shapes and key distributions",
  [U+"bgpq/_insert.py: _bgpq_insert_heapify_internal"])
p("make_batched pads without altering items",
  "make_batched returns a block of exactly batch_size keys and values whose first entries are the given items in order and whose remaining keys are +inf with default values; inserting it is equivalent to inserting just the items.",
  "all chunk lengths up to batch_size, all batch sizes",
  "all lengths",
  [U+"bgpq/bgpq.py: BGPQ.make_batched", U+"core/xtructure_numpy/dataclass_ops/batch_ops.py: pad"])
p("Heap path addressing",
  "The insertion path visited for a target block is exactly the chain of heap ancestors of that block in root-to-target order, for every target index, and the child addressing used by deletion is its inverse.",
  "all block indices below 2^31",
  "bit-level arithmetic for all indices",
  [U+"bgpq/_insert.py: _bgpq_insert_heapify_internal (shifts/ancestors)", U+"bgpq/_utils.py: _next"])
# ---- Hash
p("Streaming and concatenated hashing agree",
  "Hashing an instance field by field (streaming) gives the same pair as hashing the concatenation of its 32-bit words, for every way of splitting the words over fields, except that an instance all of whose fields are empty hashes differently in the two modes.",
  "all word sequences, all splits into fields, all seeds",
  "all lengths and splits",
  [U+"core/xtructure_decorators/hash.py: hash_fast_uint32ed, hash_fast_pair_uint32ed and the streaming variants"])
p("A one-word change always changes the hash",
  "Two instances of the same layout whose 32-bit word streams differ in exactly one word have different hashes under every seed; in particular types that fit one word never collide. The mixing function is a bijection on 32-bit words.",
  "all word lists, positions, words and seeds",
  "2^64 pairs; algebraic",
  [U+"core/xtructure_decorators/hash.py: _avalanche32, hash_fast_uint32ed"])
p("The two hashes of a pair are not independent",
  "For a fixed type and seed the second hash of the pair is a fixed function of the first, so two instances collide on the pair iff they collide on the first 32-bit hash: the pair discriminates no better than 32 bits, and all items sharing the first hash share the same probe sequence and fingerprint.",
  "all instances of a type, all seeds",
  "a statement about all pairs of instances",
  [U+"core/xtructure_decorators/hash.py: hash_fast_pair_uint32ed"])
p("Field serialisation to 32-bit words is injective",
  "For a fixed type, two instances have the same 32-bit word stream iff all their fields have the same bytes: conversion of 8-, 16-, 32- and 64-bit fields (including padding of odd lengths) loses nothing.",
  "all element widths, all field lengths",
  "all lengths mod 4 and all byte values",
  [U+"core/xtructure_decorators/hash.py: leaf to uint32 conversion (byterize/uint32ed)"])
# ---- HashTable
p("Probe sequence visits every bucket",
  "For every built table the number of buckets is a power of two at least as large as the sizing formula requires, every hash starts inside the table, and the probe sequence of every item visits every bucket exactly once before repeating.",
  "all capacities, bucket sizes and hash pairs",
  "number-theoretic, all powers of two",
  [U+"hashtable/table.py: HashTable.build", U+"hashtable/hash_utils.py: get_new_idx_from_hash / step computation"])
p("Insert then lookup finds the item, forever",
  "After any history of single and batched insertions on a table built with the default probe limit, every item ever reported as inserted (or found) is found by lookup and by lookup_parallel, at an index whose stored item equals it.",
  "all histories, all hash functions (any collision pattern), all capacities and bucket sizes below 256",
  "all histories and all collision patterns",
  [U+"hashtable/lookup.py: _hashtable_lookup_internal, _hashtable_lookup_parallel_internal", U+"hashtable/insert.py: _hashtable_insert_jit, _hashtable_parallel_insert_internal_jit"])
p("No false positives, stored items never move",
  "lookup reports found only if the returned index currently holds an item equal to the query; an item that has been stored at an index stays at that index with the same contents after any later operations.",
  "all histories, including operations that fail for lack of space",
  "all histories",
  [U+"hashtable/lookup.py", U+"hashtable/insert.py", U+"hashtable/table.py: __getitem__"])
p("HashTable holds a set: no duplicates and exact size",
  "No two occupied slots hold equal items and table.size equals the number of distinct items stored, after any history.",
  "all histories of insert and parallel_insert with arbitrary duplicates in and across batches",
  "all histories",
  [U+"hashtable/insert.py", U+"hashtable/table.py: size"])
p("insert succeeds whenever there is room",
  "With the default probe limit, insert of an absent item succeeds iff some slot is free, returns inserted=True exactly when the item was absent, and afterwards the stored set is the old set plus the item; a full table is left unchanged.",
  "all reachable tables and items",
  "all load patterns up to 100% full",
  [U+"hashtable/insert.py: _hashtable_insert_jit", U+"hashtable/lookup.py: _hashtable_lookup_internal"])
p("parallel_insert is a set union",
  "parallel_insert(inputs, filled) stores exactly the old items plus a subset of the filled inputs; the inserted mask marks exactly one representative of each newly stored item; unfilled inputs are never stored. The GPU and TPU backends leave a filled input out only when the table is completely full. The default XLA backend is complete when m*(buckets+m) <= max_probes for m filled inputs; otherwise its round limit can be exhausted with free slots left, and an input is then silently not stored (with all default settings and a total within the requested capacity).",
  "all tables, batches, masks and collision patterns",
  "all batch contents and collision patterns",
  [U+"hashtable/insert.py: _hashtable_parallel_insert_jit, _hashtable_parallel_insert_internal_jit, _resolve_slot_conflicts"])
p("Indices returned by parallel_insert retrieve the inputs",
  "For every filled input of parallel_insert that is present in the resulting table, table[idx] equals the input, for duplicates too.",
  "all batches, masks and tables",
  "all duplicate patterns",
  [U+"hashtable/insert.py: _hashtable_parallel_insert_jit"])
p("In-batch deduplication is exact in safe mode",
  "The in-batch uniqueness mask selects, for every distinct filled item, exactly one filled occurrence — the one with the smallest unique_key (ties: lowest batch index), or the lowest index when no key is given — and maps every filled occurrence to it. With the library's hash and the default (safe) mode this holds for every batch of items of at most 32 bytes without costs or with finite costs. Exceptions: an item whose hash pair (signature, or row with infinite cost) equals the all-ones pattern reserved for unfilled entries can be dropped, and approximate mode drops colliding items.",
  "all batches, masks, cost keys and hash collision patterns",
  "all permutations, ties and hash collisions",
  [U+"hashtable/hash_utils.py: _compute_unique_mask_from_hash_pairs, _compute_unique_mask_from_uint32eds"])
p("GPU (Triton) insertion is safe under every interleaving",
  "However the parallel GPU programs interleave, with arbitrarily stale reads of occupancy, no slot is claimed twice, already stored items are untouched, every successful program's slot lies on its probe chain with all earlier buckets full, and occupied slots of each bucket stay a prefix.",
  "all interleavings of any number of programs",
  "schedules cannot be enumerated by tests",
  [U+"hashtable/insert_triton.py", U+"hashtable/insert.py"])
p("TPU (Pallas) insertion satisfies the same contract",
  "The sort-and-assign round based insertion places each pending item in a free slot of the first non-full bucket on its chain at that round, never two in one slot, and keeps bucket prefixes.",
  "all batches and tables",
  "all collision patterns",
  [U+"hashtable/insert_pallas.py"])
p("Custom probe limits and wide buckets break lookup",
  "With a user-chosen max_probes smaller than needed, insert can report success for an item that lookup will never find and parallel_insert can store duplicates; with max_probes = 0 parallel_insert overwrites stored items; with max_probes within bucket_size of 2^32 a lookup in a full table never returns; a bucket that reaches 256 items becomes invisible to lookup. For bucket_size < 256 and the default limit none of this can happen.",
  "all max_probes and bucket sizes",
  "needs the exact boundary for all configurations",
  [U+"hashtable/lookup.py", U+"hashtable/insert.py", U+"hashtable/types.py"])
# ---- bitpack
p("Aggregate bit packing round-trips",
  "For every dataclass layout of bit-width-annotated fields, packing then unpacking returns every element modulo 2^bits (hence exactly, if it was in range), with fields not disturbing each other even when an element straddles a word boundary.",
  "all layouts (any number of fields, element counts, widths 1..32), all values",
  "all alignments of fields to words",
  [U+"core/xtructure_decorators/aggregate_bitpack/spec.py", U+"core/xtructure_decorators/aggregate_bitpack/kernels.py", U+"core/xtructure_decorators/aggregate_bitpack/bitpack.py"])
p("Packed storage size is minimal in bytes",
  "The packed representation consists of full 32-bit words plus a tail of at most 2 bytes whose total capacity is at least the total number of bits and less than one extra byte more (one extra padding byte when the remainder is 3 bytes).",
  "all total bit counts",
  "all residues for all sizes",
  [U+"core/xtructure_decorators/aggregate_bitpack/spec.py: _compute_word_tail_layout", U+"core/field_descriptors.py: _packed_num_bytes"])
p("to_uint8/from_uint8 round-trip",
  "Packing an array with b bits per element into bytes and unpacking restores every element modulo 2^b (for b = 1: nonzero maps to 1), for every width and every element count, including counts that do not fill the last byte; the packed length is the documented ceil(count*b/8) rounded to blocks.",
  "all widths 1..32, all lengths, all values",
  "all lengths and alignments",
  [U+"core/xtructure_decorators/aggregate_bitpack/bitpack.py: to_uint8, from_uint8, packed_num_bytes", U+"core/xtructure_decorators/bitpack_accessors.py"])
p("Unpacking one field reads only that field",
  "Reading one element of one field from the packed form gives the same value as unpacking everything, for every in-range index; writing through set_unpacked and re-reading returns the written value. Out-of-range indices are not checked and can expose bits of neighbouring fields.",
  "all layouts and element indices",
  "all alignments",
  [U+"core/xtructure_decorators/aggregate_bitpack/__init__.py: unpack_field", U+"core/xtructure_decorators/bitpack_accessors.py"])
# ---- io
p("save/load round-trips",
  "Loading a saved instance gives back an equal instance whenever every bit-annotated element fits in its declared bits; unannotated fields round-trip unconditionally. The default instance of a bit-annotated unsigned field does not fit and is altered by save/load.",
  "all dataclass trees and values",
  "all nested structures and values",
  [U+"io/io.py: save, load, _flatten_instance_for_save", U+"core/field_descriptors.py"])
# ---- xnp
p("update_on_condition: first true update wins",
  "Each target position receives the value of the lowest-index update whose condition is true and which addresses it; positions addressed by no true update keep their old value; out-of-range 1-D indices are ignored.",
  "all index/condition/value arrays",
  "all duplicate patterns",
  [U+"core/xtructure_numpy/array_ops.py: _update_array_on_condition"])
p("unique_mask selects one cheapest representative per key",
  "unique_mask marks exactly one entry per distinct filled key row: with a cost array the lowest-cost (lowest-index on ties) finite-cost entry, otherwise the first; return_index/return_inverse are consistent with the mask. Exact for keys of at most four 32-bit columns; for wider keys the row hash merges distinct rows (e.g. flipping the top bit of any two columns), and for packed types the default key ignores the trailing bytes.",
  "all key matrices, cost arrays and masks",
  "all inputs including adversarial hash collisions",
  [U+"core/xtructure_numpy/dataclass_ops/unique_ops/optimized_unique_ops.py: unique_mask"])
p("Dataclass tree flatten/unflatten round-trips",
  "Flattening an instance into its array leaves and rebuilding it gives back an instance with the same declared and static fields, in declaration order, independent of nesting; mapping a function over leaves preserves structure.",
  "all dataclass shapes, nested to any depth",
  "all nesting depths and field sets",
  [U+"core/dataclass.py", U+"core/xtructure_decorators/structure_util.py"])
p("Batch shape inference",
  "An instance reports batch shape s iff every field's array shape is s followed by the field's intrinsic shape (nested fields likewise); default(shape), indexing, reshape and flatten produce instances consistent with this.",
  "all layouts and shapes",
  "all ranks and layouts",
  [U+"core/xtructure_decorators/shape.py: get_shape", U+"core/xtructure_decorators/default.py", U+"core/xtructure_decorators/structure_util.py"])
p("Row-wise semantics of batch operations",
  "Indexing, concat, stack, take, reshape and flatten on a structure-of-arrays instance act as the same operation on the array of structures: element i of the result is assembled from one element of the input for every field. This holds for non-negative axes; with negative axes concat/stack of types having tensor fields joins along a field's own axis, and where with a batch condition broadcasts it against trailing field axes.",
  "all layouts, shapes, axes and indices",
  "all layouts and axes",
  [U+"core/xtructure_numpy/dataclass_ops/batch_ops.py", U+"core/xtructure_numpy/dataclass_ops/shape_ops.py", U+"core/xtructure_numpy/dataclass_ops/logical_ops.py", U+"core/xtructure_decorators/indexing.py"])
with open("/verif/properties.jsonl","w") as f:
    for x in P: f.write(json.dumps(x)+"\n")
print(len(P))
