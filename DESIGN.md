# DESIGN — a Rocq (Coq 8.16.1) model of tinker495/Xtructure

## 1. Approach

Every public operation of the library is a *pure* function from arrays to arrays
(JAX, `jit`-compiled), so the model is a shallow embedding in Gallina: an array is
a list (or, in the dataclass layer, a dtype + shape + row-major element list), an
operation is a total function, a raised exception is `None`, and a user history is
a list of operations.  The two exceptions are the GPU kernel (`TritonModel.v`, a
small-step interleaving semantics with stale reads) and the TPU/Pallas kernels
(sequential grids in an arbitrary order).

Files come in four kinds:

* `*Model.v`, `HeapArrays.v`, `Jax.v` — definitions only; each cites the file and
  lines of `/repo` it models and says where it simplifies;
* `*Spec.v`, or the section headed *Specification* at the top of a `Prop*.v` —
  the vocabulary of the properties, on plain lists, bags, sets and elements, with no
  reference to the model's helpers;
* `*Proofs.v` and the other files — lemmas;
* `Prop*.v` — the property theorems `Cnn_*`, each followed by concrete examples that
  meet the hypotheses.  Theorems whose name ends in `_refuted` prove that a stronger
  claim a user might expect is *false* of the code, with a witness history.

The model has two levels.  The container algorithms (queue, stack, heap, hash table)
are first proved for lists of opaque items.  The dataclass layer (`StructModel.v`
onwards) models instances as trees of named arrays; C45–C47 then prove that the
containers written on instances (one array per field, as in the code) simulate the
list-level containers, and C42/C44 that instances satisfy the hypotheses (equality,
words, hash) the list-level table theorems ask of an item type.  So the list-level
theorems are about the code's arrays, not only about an idealisation.

## 2. Semantics of JAX/NumPy primitives written into the model (trusted reading)

| primitive | modelled as |
|---|---|
| `x[i]`, traced index | negative `i` becomes `i+n`, then clamped to `[0,n-1]` |
| `.at[i].set(v)` | negative `i` becomes `i+n`; still out of bounds: dropped |
| scatter with `mode="drop"` | out-of-bounds writes dropped |
| scatter with repeated indices | last write wins in the dataclass layer (`last_hit`); the container code only scatters at distinct indices (proved) or uses `min`/`max`, which are order independent.  No theorem about the containers depends on the winner. |
| `uint32`/`int32` arithmetic | reduced modulo 2^32 where a value can leave the range; where indices are modelled by `nat` the theorem carries the size hypothesis that makes it exact |
| shift by at least the width | 0 |
| `argsort(stable)`, `lax.sort(is_stable)`, `lexsort` | stable insertion sort (all stable sorts agree) |
| `argmax` | first maximal index |
| `while_loop`, `fori_loop`, `scan` | recursion on fuel, with the fuel proved sufficient |
| `lax.cond`, `where` | `if` (element-wise) |
| `searchsorted` | the number of smaller (or equal) elements |
| `astype`, `bitcast_convert_type` between integers | modular reduction / bit patterns |
| float keys and costs | `NInf | Fin Z | PInf` with the obvious order: a set of non-NaN floats is order-isomorphic to such a set, and keys are only compared, moved and tested by `isfinite`. For the queue this is lifted to bit patterns including NaN in C57; costs of deduplication are such keys or NaN (`costval`) |
| float elements of dataclasses | their IEEE bit pattern (binary16/32/64); `==` is IEEE equality, proved to be equality of the represented numbers (`FloatEq.v`) |
| `jax.tree_util.tree_map` | field-by-field recursion; proved for `__iter__`-flatten/unflatten as registered in C39 |
| `jax.numpy` array operations on batches | `ArrayModel.v`, from the documented meaning |
| `np.savez`/`np.load` | a dictionary that preserves keys, native dtypes, shapes, elements |

## 3. Properties

`TableModel` below means the list-level hash table.  "Histories" means: by induction
over an arbitrary list of calls on a freshly built container.

| id | files | how |
|---|---|---|
| C01–C05 | QueueModel, QueueSpec, QueueProofs, PropQueue, PropQueueDebt | record of store/head/tail with uint32 counters; refinement of a list specification over histories; exact effect of overflow and underflow (what is returned, what is lost afterwards); stronger claims refuted |
| C06–C08 | KeyModel, SortProofs, MergeModel, MergeProofs, PropMerge | three merge backends as functions, each equal to the stable merge; merge-path binary search by an invariant |
| C09–C16 | HeapModel, HeapSpec, HeapProofs, HeapInsert, HeapInv, HeapDelete, PropHeap | block heap of sorted rows; invariant preserved by insert and delete; refinement of a bag specification over histories; exact eviction bound |
| C17–C20 | HashModel, HashProofs, PropHash | 32-bit words as `N`; avalanche bijective by explicit inverse; fold algebra; word serialisation injective |
| C21–C27 | TableModel, ProbeProofs, TableLookup, TableInv, TableInsert, ResolveProofs, TableRounds, TableCommit, TableBound, ParInsertModel, ParInsert, ParEffect, Claims, TableSpec, TableHistory, PropTable, PropTableCases | any hash function (every collision pattern), any item type with decidable equality; invariant (occupied prefixes, full buckets before an item's bucket); histories of `insert` and `parallel_insert` on the three backends |
| C28 | DedupeModel, DedupeSpec, DedupeProofs, DedupeExact, PropDedupe | grouping by sorted signature, scatter-min representative |
| C29 | TritonModel, TritonProofs | small-step semantics, any interleaving, stale reads; inductive invariant; termination |
| C30 | PallasModel, PallasProofs | rounds in any program order; same slot contract |
| C31 | PropTableWide, PropTableCases | concrete histories with the real hash for unsupported settings |
| C32–C35 | BitpackModel, BitpackSpec, BitpackProofs, BitpackAgg, BitpackBytes, PropBitpack | layout and word tables; bit-level specification by `N.testbit` |
| C36 | StructModel, IOModel, PropIO | instance trees, flattening to dotted keys, loading rebuilds the instance |
| C37 | UpdateModel, GroupFirst, PropUpdate | first true update per position; n-dimensional coordinates |
| C38 | UniqueModel, UniqueProofs, PropUnique | unique_mask with and without costs, 1–4 columns, x64 |
| C39 | TreeModel, PropTree | flatten/unflatten/replace/to_tuple for all class shapes |
| C40 | ShapeModel, PropShape | batch-shape inference |
| C41 | ArrayModel, ArrayFacts, RowsModel, RowsLift, PropRows, PropRows2–4, PropRaises | one generic lifting theorem (an operation that is row-wise on every array is row-wise on instances), instantiated for each operation; PropTakeAlong: broadcast indices |
| C42 | EqModel, FloatEq, PropEq, PropEqTable | `==`/`!=`; instances as items of the table |
| C43, C44 | AggModel, AggKernel, AggFacts, PropAgg, PropAgg2, PropAggHash | batches of packed instances, XLA and Pallas packing; hashing in packed mode |
| C45 | SoaModel, PropSoa, PropSoa2, PropSoa3 | queue, stack, conditional set on instances |
| C46 | HeapArrays, HeapRows, HeapSim, HeapSim2, HeapSim3, PropHeapArrays | the heap on a key array and a value instance simulates the heap of pairs |
| C47 | TableArrays, TableMap, TableSim, TableArraySpec, TableArrayHist, PropTableArrays | naturality of the list-level table in its item type, then simulation: arrays of rows represent the list of items, for field-hashed and packed-hashed classes |
| C48 | ConstructModel, PropRandom | random instances over an arbitrary generator: induction over classes; converse by a generator indexed by field paths |
| C49 | ConstructModel, PropValidate | exact characterisation of `check_invariants` by induction over fields; counterexamples for what it does not check |
| C50 | ConstructModel, MetaModel, PropDescriptor, PropMeta | the descriptor constructors, `default` of one field, cloning, metadata |
| C51 | PackedFieldModel, PropPackedField, PropPackedField2 | packed-field accessors on batched arrays: row-wise map lemma over `chunks`, then the per-row round trip of C35 |
| C52 | RowsModel2, PropRows5, PropRows6, PropRaises | each array function is a gather on the batch axes (composition of gathers for rot90 and several axes; sortedness of the insertion order for moveaxis); lifted to instances by RowsLift |
| C53 | RowsModel2, PropRows7, PropLike | a relation between arrays lifted to instances of possibly retyped classes (`each_lift`), commuting with taking elements |
| C54 | RowsModel2, PropRows8, PadStatModel, PropPadStat | padded axes as gathers with a per-axis source; mirror modes characterised by their two reflections, proved unique; statistics and ramps: any filling computed from the entries along the axis (the arithmetic of mean, median and ramps is a parameter) |
| C55 | FilesModel, PropFiles | disk = map from paths to archives or damaged files; the class name is the last member written, so an archive cut anywhere lacks it; induction over the history |
| C56 | IOModel, PropEvolve | `migrate` (the specification) by induction on the new class; keys of different fields never collide |
| C57 | HeapFloat, FloatOrder, HeapFloatSim, PropHeapFloat | the queue re-modelled on bit patterns with the comparisons of `jax.lax.sort`, `>`, `minimum`, `argmax`; forward simulation by the queue on abstract keys (NaN stands with +inf, values in padding slots ignored), stored blocks stay NaN-free because NaNs sort last; bit-pattern order = numeric order via `fval` (FloatEq) |
| C58 | TableFloat, TableFloatSim, PropTableFloat, PropTableFloat2 | the same table model run with an `==` that is only partially reflexive and coarser than the bits; simulation by the table on items tagged with the number of the insertion when they contain NaN (tagged equality is Leibniz equality), so C14-C23 apply to the tagged table; instances of any class with any bit patterns are such items |
| C59 | KeyModel (`costval`), DedupeModel, DedupeProofs, DedupeExact, PropNanCost | costs in the deduplication model may be NaN: scatter-min is the minimum in the order with NaN at the bottom, `==` is false on NaN; a group with a NaN has no candidate, so its representative is entry 0; the table theorems are then split by whether the item of the entry is so affected |
| C60 | RowsModel, RowsModel2, PropInverse, PropInverse2 | an instance is determined by its elements (`C41_extensional`); each law follows from the element-wise theorems of C41/C52 by computing where the composition sends every position (permutations, quarter turns, prefix sums of the pieces, boxes) |
| C61 | IntCost, PropIntCost | the integer-to-float conversion is modelled on Z and proved to be nearest, ties to even; monotonicity and the error bound follow from nearness; the kept occurrence by C28 on the converted costs |
| C62 | PropSplit, PropSplit2, PropSplitCases | programs of calls as lists; by induction a lossless program leaves exactly the items it asked for, so two programs asking for the same set answer alike; for the priority queue a simulation between two runs whose bags have the same keys (sorted key lists are unique); queue and stack by splitting the index range |
| C63 | PropCost, PropCostCases | the relaxation loop of a search (parallel_insert + update_on_condition) as a step relation; invariant: every stored item's entry is the best offer so far, other entries untouched |
| C64 | PropHeapLen | heap invariant without the buffer-length clause; insert/delete preservation redone for any block length; bag trace with an explicit list of dropped items |
| C65 | PropHeapVals | predicate on all values of rows and buffer, preserved by every operation |
| C66 | PrintModel, PropPrint | cells by row-major enumeration of the batch shape; text by lines, then injectivity by splitting indented lines |
| C67 | LegacyModel, PropLegacy | jnp.unique by stable sort, scatter-min by induction; both masks characterised by the same first-order condition |
| C68 | TieModel, TieProofs, TieKeys, PropTies | the heap invariant re-proved over an abstract lawful back end; erasing values gives a simulation into the key-only stable queue, hence keys are determined |
| C69 | NameModel, PropNames | the decorator as the ordered list of names it sets on a class namespace, with Python's attribute lookup; a closed form for every look-up after decoration, then case analysis |
| C70 | CompareModel, PropCompare, PropSafeCast | the entrywise lifting of C53 for any test on numbers; tree_reduce as a conjunction over the arrays; the safe rule against the set of numbers of each dtype (encode/decode of IEEE patterns) |
| C71 | BlockModel, PropBlock, BlockTupleModel, PropBlock2 | jnp.block as a recursion on the nested list; tree_map as a relation per leaf position closed under composition (`each_fuse`), induction on the nesting; leading axes of size 1 commute with concatenation |
| C72 | PromoteModel, FloatRound, PropPromote | the promotion lattice as a join on dtypes plus the weak float that uint64 and signed integers meet in; floats as integers in units of 2^-1074, so that rounding to nearest is integer division and the order of patterns is the order of numbers |
| C73 | PromoteModel, PropMixed, PropMixed2, PropMixed3 | the instances are shown equal, leaf by leaf, to instances of a class with the common dtypes (`C73_bring`), to which the C41 theorems apply; `==` by the zip of arrays |
| C74 | HeapTypes, PropHeapTypes | the dtype each array gets, traced through insert and delete_mins; conversion is monotone (C72), so sorting before converting leaves the block sorted and C57 applies |
| C75 | TableConv, TableConvSim, PropTableConv, PropTableConv2 | the table operations with separate ==, bytes and conversion on writing; simulated by a table of word vectors, to which C21–C31 apply; C72/C73 discharge the family conditions for dataclass instances |
| C76 | TakeModel, PropTake | leaf operation for every way of reading an index (take_by), lifted to instances; the converse for take_along_axis by induction on the class |
| C77 | ConvStore, PropConvStore | converting on write equals writing the converted item (induction on the class); histories reduce to C45's |
| C78 | HeapValues, PropHeapValues | the first merge of an accepted block equals the merge of the converted block; acceptance by C74_types leaf by leaf; histories reduce to C46's |
| C79 | KvModel, KvProofs, QueueAgree, EnvModel, PropSettings, PropSettings2, PackEnv, PropSettings3, PropSettings4 | each merge a setting selects equals the stable merge on sorted blocks (Merge Path, cutting and restoring values); every merge of a queue call gets sorted blocks (invariant), so histories agree; tables by C62, hashes by C17; readers by case analysis on words |
| C80 | SchemaModel, PropSchema, PropSchema2 | the specs are the leaves with running offsets (induction on the class), bits by the stream lemma behind C44, reading by the view's dictionary; slices against a filter of 0..n-1 |
| C81 | SchemaModel (pack_any, restore), AggAny, PropAggFloat | packing any dtype is packing the uint32 image, for which C43 applies; one-entry arithmetic of float conversion (truncation, rounding) closes the leaf relation by induction on the class |
| C82 | LiveModel, PropLive, PropLive2 | mutual induction over classes: the shape tree computed from fields; caches of every nested instance carried along; invariant: every filled cache equals the value computed from the data, and instances not under an asked path have empty caches; induction over histories |
| C83 | IterModel, PropIter | the items of the sequence protocol are the rows of C41 with clamped index; induction over the number of calls |
| C84 | PackedAny, PropPackedAny, PropPackedAny2 | packing = packing the uint32 image (C81), so C44 applies to it; the words as integer parts, leaf by leaf; the items form a family in the sense of C75; single operations: a second table type whose words are packed words followed by bytes, same hashes |
| C85 | TreeModel2, PropTree2 | flattening up to a tree definition as JAX does it; names sort to one list, so tree definitions are equal exactly for alike instances; structural induction on the pair |
| C86 | SoaModel, UpdateAnyModel, UpdateForeignModel, PropSoa4, PropForeign | a field broadcasts exactly when the batch shapes do (`bc_app`), so all fields are updated or none is; lifted to instances by RowsLift |
| C87 | SliceModel, PropSlice | `slice.indices` arithmetic selects exactly the filtered positions (two sorted lists with the same elements); lifted to instances by RowsLift; writes through C86 |
| C88 | DispatchModel, PropDispatch | pytrees with nominal classes, jax's prefix tree_map, the dispatchers of `xnp`; induction over the tree for soundness and completeness of tree_map |
| C89 | PropListRows | the elementwise theorems of C41/C52 turned into equations between lists of rows; a list is the concatenation of lists if it has the entries of each at its offset |
| C90 | PropFrontier, PropFrontierCases, PropRoom, PropRoomCases | the step is composed of the models of parallel_insert, update_on_condition, insert and delete_mins; invariant: the pairs in the queue or handed out are distinct, cover the best costs of C63 and are never below them; a concrete run in which an item is handed out again because its cost improved |
| C91 | PropDijkstra, PropDijkstraCases, PropAstar, PropAstarCases, PropTrace, PropTraceCases, PropSearchSame, PropSearchSameCases, PropNegCases, PropGoal, PropGoalCases, PropHead, PropHeadCases | paths of a graph as an inductive specification; soundness by an invariant over the run of C90, the bound by induction on the path; a concrete graph searched to the end and stopped early; A* by reduction to the weights w + h y - h x, with a concrete run; following the parents ends because (cost, time of the last improvement) decreases; two finished searches agree since both hold the least path costs |

All properties listed in `properties.jsonl` are expressible in the model; none is
`not_applicable`.  Later additions are listed at the end of this section and in
`MANIFEST.json`.

### Hypotheses that carry a user-visible meaning

* C01, C03: `max_size < 2^31`.  C09–C14: `max_size + 2*batch_size <= 2^31`, keys neither
  NaN nor `-inf` (C12 proves why `-inf` is excluded).
* C21–C30: supported configurations (`TableSpec.v`): bucket size 1..255 (lookup keeps
  the fill level in a byte), slot indices within int32, default or larger probe limit.
  C31 proves what happens otherwise.
* C28, C38, C59: costs are floats (C61: integer costs are converted first).  Exactness in C28 is for costs that are not NaN; C59 says what happens otherwise.
* C32–C35, C43: 1..32 bits per leaf, less than 2^32 bits in total.
* C36: field names are identifiers, not the two metadata keys.
* C40, C41, C43, C45, C46, C47: the class has a field and no *empty* nested class.

## 4. Trusted base

* The Coq 8.16.1 kernel, including its `vm_compute` conversion (used only to evaluate
  closed examples and refutations; `coqchk` re-evaluates them without the VM).
* **Axioms: none.**  `Print Assumptions` answers "Closed under the global context" for
  every theorem named in `MANIFEST.json`.  (`vcheck` also lists seven
  `Coq.ssr.ssrunder.Under_rel.*` items: module-type parameters of the standard library's
  ssreflect that are loaded by `Lia`; no theorem uses them.)
* No functors, module types, plugins, Admitted, or kernel flags.
* My reading of the Python source (recorded beside each definition) and the table of
  section 2.

## 5. What is and is not modelled

Modelled: `queue/`, `stack/`, `bgpq/` (all of it except benchmarks; Pallas kernels of
`merge_split` as their per-program functions), `hashtable/` (all modules, three
backends), `io/io.py`, `core/dataclass.py` (pytree registration, replace, tuples),
`core/field_descriptors.py` and `field_descriptor_utils.py` (as the `desc` type and
the constructors), `xtructure_decorators/{default,shape,indexing,ops,hash,io,
structure_util,string_format,validation,bitpack_accessors,aggregate_bitpack}`, the dispatchers of `xtructure_numpy/__init__.py`, `xtructure_numpy/dataclass_ops/{batch,shape,
logical,spatial,fill,comparison,type}_ops`, `unique_ops/{optimized,legacy}_unique_ops`, `array_ops.py`; the environment variables of
`bgpq`, `hashtable` and hashing (EnvModel, KvModel).

Not modelled: JAX tracing and compilation, sharding, device memory; numerical values of
float arithmetic (there is none in the library except conversion of costs); dtype
promotion of weakly typed arrays (except `where` with a Python int); other `__post_init__` hooks; `protocol.py`, `annotate.py`,
the drawing of tables by `rich` in `string_format.py`, the bodies of attached functions where they only forward;
benchmarks; bfloat16/float8 bit patterns; the timing effects of donated buffers.

## 6. Findings made while modelling

Each is either proved (theorem named) or recorded here because the model excludes it.

1. Queue: enqueueing past capacity after dequeues loses items even though fewer than
   `max_size` are stored — `C02_no_loss_below_capacity_refuted`.
2. Stack/queue: popping more than is stored moves the counter so that later sizes exceed
   what was added — `C05_size_bounded_by_added_refuted`;
   `C04_overflowing_push_pop_returns_pushed_refuted`.
3. Heap: a `-inf` key is not counted (`C12_minus_infinity_is_not_counted`); a full heap
   does not evict the largest (`C14_evicted_are_the_largest_refuted`) and may hold more
   than `max_size` (`C14_size_at_most_max_size_refuted`).
4. Hash: the two hashes of a pair are not independent for one-word types (C19); streaming
   and concatenated hashing differ when a leaf is empty (`C17_empty_fields_differ`), and
   `hash_pair` and `hash_pair_with_uint32ed` choose the mode separately.
5. `parallel_insert` may lose items it reports as neither found nor inserted in a nearly
   full table (XLA backend) — `C26_no_loss_refuted`, `C26_no_loss_refuted_small`.
6. In-batch dedupe: reserved hash pair, infinite cost, approximate mode collisions —
   `C28_*_refuted`.  Integer costs are rounded to float32 first (C61); a NaN cost makes
   element 0 the representative (C59).
7. Unsupported probe limits and buckets wider than 255: `C31_*`.
8. `unpack_field` with an index out of range reads neighbouring fields —
   `C35_out_of_range_refuted`.
9. `unique_mask`: all-ones keys lost, keys wider than four words merged, packed tails
   ignored, packed types of at most 16 bits have no key at all — last six C38 theorems.
   Integer cost dtypes cannot hold the infinity the code fills with (excluded).
10. `update_on_condition` needs the array length to fit the index dtype (see 56).
11. `set_as_condition` with 2-D indices and batched values silently writes nothing —
    `C45_two_dimensional_condition_refuted`.
12. Save/load: a field called `file` cannot be saved (`C36_file_field_refuted`; with
    NumPy ≥ 2.1 also `allow_pickle`); a default of an unsigned `bits` field is altered by
    the round trip (`C36_default_altered`); a bool field with bits > 1 asserts.
13. `from_tuple` is broken (`C39_from_tuple_refuted`); attributes attached to an instance
    later are dropped by any pytree round trip (`C39_extra_dropped_refuted`).
14. Batch shape: an empty nested class makes a batched default UNSTRUCTURED
    (`C40_empty_nested_refuted`); the cached shape is stale after assigning a field
    (`C40_stale_cache_refuted`); an unstructured nested instance in an array-shaped field
    raises TypeError (`C40_nested_unstructured_raises`).
15. Batch operations: negative axes act per leaf (`C41_negative_axis_refuted`); whole-array
    forms of `tile`/`flip`/`squeeze` are inconsistent on tensor fields; `where` broadcasts
    the condition against trailing dimensions; `.at[].set` swallows errors so some fields
    may be written and others not (`C41_at_set_half_written_refuted`).
16. `==` against an empty batch is True, on a class without leaves raises (C42); NaN and
    −0.0 make `==` disagree with the hash (`C42_float_pitfalls`).
17. Packed-mode hashing merges values that do not fit their declared bits (`C44_collision`).
18. `random` ignores `bits=` (`C48_fits_declared_bits_refuted`); `validate=True` checks neither
    a common batch shape nor nested contents nor results of operations (`C49_*_refuted`).
19. `packed_tensor(fill_value_factory=...)` always raises (`C50_packed_factory_refuted`); cloning
    to another dtype keeps the old fill (`C50_clone_dtype_fill_refuted`).
20. `from_unpacked` silently ignores unknown names when every field is given
    (`C51_unknown_name_refuted`); a packed field without values cannot be read or assigned
    (`C51_empty_refuted`: `reshape((-1, 0))` comes before the test for emptiness).
21. `moveaxis` with negative axes mixes elements while reporting the right batch shape
    (`C52_moveaxis_negative_refuted`); vstack/hstack/dstack/column_stack/concat(axis=None)
    of 1-D batches of mixed classes are UNSTRUCTURED (`C52_mixed_stack_refuted`); the default
    axes of `xnp.take` and `xnp.take_along_axis` act inside tensor fields
    (`C52_default_axis_refuted`).  Outside the model: `inst.vstack(...)` and the like pass the
    instance as the list; an instance has `__getitem__` and `__len__` but no `__iter__`, so
    iterating over one never ends (clamped indexing never raises IndexError).
22. `xnp.where(cond, x, 0)` turns every integer field into int32
    (`C53_where_int_dtype_refuted`); `where_no_broadcast` with a batch-shaped condition always
    raises for classes with tensor fields (`C53_where_strict_raises`).
23. `pad(x, (a, b))` on a 2-D batch pads only axis 0 (`C54_two_ints_refuted`).
24. `save("x")` writes `x.npz` while `load("x")` opens `x` (`C55_path_refuted`); overwriting
    is not atomic (`C55_overwrite_loses_refuted`); a plainly stored field loads with the dtype
    it was saved with even if the class now declares another (`C56_dtype_refuted`).
25. Inserting an item with a NaN key drops it silently (`C57_nan_items_are_stored_refuted`).
26. Hash-table items are hashed by bit pattern and compared with `==`: 0.0 and -0.0 are both
    stored, a NaN is stored at every insertion and never found
    (`C58_float_duplicates_refuted`).
27. One NaN cost loses all occurrences of its item in the batch, also those with a finite
    cost, unless the item is entry 0; they are reported with entry 0's index
    (`C59_nan_cost_refuted`).
28. Integer costs are compared as float32: of two occurrences with costs 16777217 and
    16777216 the more expensive first one is kept (`C61_cheapest_refuted`).
29. On the default backend, without the no-loss bound, batch boundaries are visible: one
    batch loses an item that single inserts of the same items store
    (`C62_table_unconditional_refuted`).
30. In a full table the index returned for a lost item is the slot of another item, and
    `unique` is true for it: a cost table kept beside the hash table is corrupted
    (`C63_lost_item_overwrites_refuted`).
31. `BGPQ.insert` accepts blocks of any length. Blocks shorter than batch_size shrink the
    buffer and silently lose items of a nearly empty queue (`C64_short_blocks_lose_items`);
    after an oversize block `size` can undercount (`C64_oversize_blocks_make_size_undercount`).
32. docs/bgpq.md says padding returned by `delete_mins` carries default values; it carries
    stale values (`C65_padding_is_not_the_default_refuted`). docs/hashtable.md says
    `unique_mask` is true if the item was new; it does not depend on the table
    (`C28_unique_ignores_the_table`), `inserted_mask` does (`C26_inserted_mask`).
33. `unique_mask` and `unique_mask_legacy` differ on filled items of infinite cost, on all-ones
    keys and on keys of five or more columns (`C67_*_refuted`).
34. A field named like a library property (`shape`, `dtype`, `bytes`, `at`, ...) is accepted by
    the decorator but no instance can ever be made (`C69_property_field_refuted`); so is a field
    `faces_unpacked` next to a packed field `faces`; a packed field called `set` loses its
    accessor (`C69_clashes_refuted`). A user-defined `hash`, `save`, `default`, ... is silently
    replaced, a user-defined `roll` is kept (`C69_own_hash_refuted`).
35. Descriptors are cached on the class and found through inheritance: a redecorated subclass
    with new fields keeps the base's descriptors, so `default()` and `random()` raise and `shape`
    ignores the new fields (`C69_subclass`, `C69_subclass_refuted`).
36. `can_cast(x, float64)` is True for 64-bit integer fields although 2^54 + 1 is not a float64
    (`C70_safe_int64_refuted`, numpy's rule); `allclose` of a class without fields is True where
    `==` raises (`C70_allclose_eq`).
37. `block` joins fields that are arrays along their own axes: `block([x, y])` of two batches of
    a class with a field of shape (2,) is no instance (`C71_block_tensor_refuted`). A nested
    *tuple* of instances is accepted, but `is_leaf` stops at lists only, so every array is handed
    to `jnp.block` on its own and the fields of the result are tuples (`C71_block_tuple_refuted`).
38. `result_type` is not associative: (uint64, int8, float32) is float32, but
    (result_type(uint64, int8), float32) is float64 (`C72_nested_refuted`); so concatenating in
    two steps can give other dtypes than in one. Without x64, uint32 with int8 is int32, so
    numbers from 2^31 on wrap to negative (`C72_upper` excludes exactly this case).
39. `==` between instances with different dtypes can be True for different numbers and is not
    transitive: int32 16777217 == float32 16777216 == int32 16777216, and without x64
    uint32 4294967295 == int32 -1 (`C73_eq_lossy`).
40. `pad` changes dtypes to the declared ones only if it pads: with all-zero pads the instance is
    returned with the dtypes it had (`C73_pad`).
41. The default queue has float16 keys. Integer keys are accepted and silently rounded to it:
    those from 65520 on become inf and are lost without a trace
    (`C74_int_keys_are_stored_refuted`), and above 2048 different keys tie, so 2049 can be
    returned before 2048 (`C74_int_order_refuted`). float32 keys, on the other hand, raise a
    TypeError from inside lax.cond (`C74_wider_raises`).
42. HashTable accepts items of other dtypes than declared. A float32 5.0 put into a uint8 table
    is stored as the uint8 5, but the uint8 5 does not find it and is stored a second time
    (`C75_other_bytes_refuted`); an int8 -1 is stored as 255, is not found by the very item just
    inserted, and every further insert of it succeeds again and uses up another slot
    (`C75_lost_number_refuted`).
43. `xnp.take_along_axis(instance, indices, axis, mode="fill")` raises for every class with a field
    that is not a scalar per element, although "fill" is the default mode and the call without it
    works: with a mode (or a fill_value) the indices are not expanded to the fields' dimensions
    (`C76_take_along_scalar_only`, `C76_along_mode_raises`).
44. Queue, Stack and `.at[...].set` accept items of other dtypes than declared and convert them,
    with loss: an int32 300 put into a uint8 field is dequeued as 44 (`C77_lossless_refuted`; JAX
    only warns).
45. BGPQ refuses a full block of int32 values for uint8 fields with a TypeError, but takes a block
    one item shorter after `make_batched`, reducing the values modulo 256: the padding converts,
    its absence does not (`C78_dtype_decides_refuted`). An int32 value for a float16 field is
    accepted in both cases, and 70000 comes back as inf (`C78_taken_is_kept_refuted`).
46. XTRUCTURE_BGPQ_SORT_STABLE is neither stripped nor validated: "no", "n" or " false" silently
    leave the sort stable, while the table's switches understand them;
    XTRUCTURE_BGPQ_MERGE_BACKEND=" sort" raises; XTRUCTURE_BGPQ_MERGE_VALUE_BACKEND takes "0" but
    raises for "1" (`C79_spelling_traps`).
47. With XTRUCTURE_BGPQ_MERGE_VALUE_BACKEND=on, a class with an empty field (shape (0,), or the
    packed form of a class whose tail has no bytes) raises at the first insertion on a GPU in all
    packings except "pad" (`C79_empty_field_traps`): nothing is stacked or concatenated.
48. A float field with `bits` is accepted and packed by value: 2.75 comes back as 2.0 from
    `as_original()`, 2.5 and 2.0 have equal packed forms (and so equal packed hashes), and the
    default fill +inf is platform-defined after packing (`C81_fraction_lost`, `C81_survives`).
49. `unpack_field(name, indices=slice(...))` promises Python slices but passes start, stop and step
    to `arange`: a negative start or a stop past the end reads bits of neighbouring fields, and a
    negative step returns nothing (`C80_slice_traps`).
50. A float field with `bits=1` can be saved packed: only whether each entry is zero is kept, and
    the load gives 0.0 and 1.0 (`C36_element` with `fits` for floats); more bits raise.  A packed
    save also turns arrays of undeclared dtypes into the declared dtype, a plain save does not
    (`C36_roundtrip`, example `ex_io_loose`).
51. Instances can be indexed and have a length but no `__iter__`, and jax clamps out-of-range
    integers: `for row in batch` never ends (the last row is repeated for ever), `list(batch)`,
    `xnp.vstack(batch)` and `batch.vstack()` run out of memory, `a, b = batch` raises for a batch of
    two, `v in batch` never answers False; a loop over a single instance with a scalar field yields
    nothing (`C83_loop_never_ends`, `C83_no_list`, `C83_unpack_raises`, `C83_single`).
52. `x.shape` of an unstructured instance hides the shapes that make it unstructured: every scalar
    field shows `()` whatever its array's shape, so the error messages quoting it do not help
    (`C82_unstructured_hides_shapes`).
53. All three caches go stale when a field of the instance, or of an instance nested in it, is
    assigned after a question; copy.copy and pickle carry the stale caches along; `replace` and any
    jax.tree_util pass are safe (`C82_stale_refuted`, `C82_copy_carries_rebuild_cures`).
54. In packed mode `parallel_insert` of a batch containing 2.5 and 2.0 (a float field with 4 bits; or
    255 and 7 in a 3-bit uint8 field) keeps one of the two and returns its index for the other, although they are not
    equal; inserting them one after the other keeps both (`C84_batch_loses_refuted`,
    `C84_single_insert`).
55. After a pop or dequeue of d items too many, the next d items added are lost without notice; a
    batch pushed onto such a stack writes its first items into the far end of the storage
    (`C05_stack_debt`, `C05_queue_debt`, `C05_debt_case`). `Queue.clear` resets the counters; a
    stack has no such call.
56. `inst.at[idx].set_as_condition(cond, values)` silently changes nothing when the dtype of `idx`
    does not have the number of rows (int8 indices on 128 rows or more, uint8 on 256 or more) or is
    not an integer dtype: `jnp.array(n, dtype=index_dtype)` raises OverflowError, which
    `except Exception` swallows. `xnp.update_on_condition` raises for the same arguments, although
    every index may be a row (`C45_no_room_is_silent_refuted`, `C37_no_room_raises`; found by reading the code against
    the model, which had ignored index dtypes until then).
57. Errors of single fields are swallowed, so `inst.at[idx].set(array)` tears rows apart whenever the
    array broadcasts to some fields only (new `id`, old `pos`), and so does indexing a single instance
    that has tensor fields (`C86_array_is_torn_refuted`, `C86_single_is_torn_refuted`). A batch of
    values of a shape that does not fit is ignored without a word (`C86_unfit_is_silent`).
58. `x[..., i]` indexes the last axis of every field separately: with a tensor field this mixes the
    i-th row of the scalars with the i-th entry of every tensor, and on a batch as long as the tensor
    the result is a well-formed instance that is none of the rows (`C87_last_axis_refuted`).
59. `xnp.where` of two instances of a class without fields raises (`jnp.asarray` of an instance), while
    `update_on_condition` returns (`C88_where_without_fields_refuted`). Read from the code: most options
    without a meaning for instances are refused, but `out_sharding` of `zeros_like`, `ones_like` and
    `broadcast_to` is silently dropped, and `concat` of a one-element list ignores its axis, valid or not.
60. `batch.at[i].set(value)` with a value of the class of a *nested field* (a slip: the parent was meant)
    neither raises nor is ignored: the nested field of row `i` is replaced, the row's other fields are kept
    (`C86_foreign_is_torn_refuted`). With a value of an unrelated class the call is a silent no-op
    (`C86_foreign_is_silent`).
61. `xnp.pad(batch, ..., mode="maximum")` (also minimum, mean) pads every field with its own statistic: the
    padding rows are rows that never were in the batch (`C54_pad_maximum_refuted`).
62. A search loop over the library's block-wise queue is not Dijkstra's algorithm: the first time a state is
    handed out it need not come with its shortest distance, since a block is handed out before its first
    state is expanded (`C91_first_handed_out_refuted`); one has to go on until no key in the queue is smaller
    (`C91_shortest`).
63. What such a loop needs for its answer: weights that are not negative (with a negative one the stop rule
    answers too early, `C91_negative_refuted`), for a goal a comparison with the goals handed out in the same
    block (`C91_goal`), and a queue with `total_size + batch_size` above the number of offered costs
    (`C90_room`); nothing else about sizes, order, hash settings or estimate matters (`C91_independent`).

## 7. Seeded bugs

`seeded/set*.json` lists edits to the model files that reproduce realistic bugs;
`seeded/mutate.py` applies each in a scratch copy and rebuilds everything;
`seeded/LOG.jsonl` (written by `seeded/log.py`) records, for each, the claim it breaks, the
theorems that failed, and what was tightened when one survived.  `seeded/survey/` walks over every
definition of the model files and changes one token of it; its results are the `A...` lines of the log
(22 of 391 well-formed edits survived: eight led to new theorems, the others are equivalent or change a
default that is never reached).
