c("C01","proved",["C01_queue_is_fifo"],"Refinement of every legal history; max_size < 2^31.")
c("C02","proved",["C02_queue_keeps_first_max_size_items","C02_enqueue_effect","C02_no_loss_below_capacity_refuted"],"Exact overflow behaviour for histories enqueuing at most 2^31 items; the stronger claim users may expect is refuted with a witness.")
c("C03","proved",["C03_stack_is_lifo"],"Refinement of every legal history; max_size < 2^31.")
c("C04","proved",["C04_push_effect","C04_push_then_pop_restores","C04_overflowing_push_pop_returns_pushed_refuted"],"")
c("C05","proved",["C05_pop_size","C05_dequeue_size","C05_size_bounded_by_added_refuted","C05_pop_returns","C05_dequeue_returns","C05_stack_debt","C05_queue_debt"],"C05_stack_debt: at most max_size items added afterwards (a batch that long would write slots twice).")
c("C06","proved",["C06_merge_split_keeps_pairs","C06_merge_split_is_stable_sort_of_pairs","C06_value_reorder_modes_agree"],"Keys without NaN.")
c("C07","proved",["C07_loop_backend_agrees","C07_parallel_backend_agrees","C07_parallel_kv_backend_agrees"],"Fused key/value kernel stated for non-empty sides; keys without NaN.")
c("C08","proved",["C08_partition_is_correct","C08_partition_is_monotone"],"")
P32="max_size + 2*batch_size <= 2^31; keys are not NaN and not -inf."
c("C09","proved",["C09_reachable_queues_are_well_formed"],P32)
c("C10","proved",["C10_every_history_refines_the_bag_spec","C10_delete_mins_returns_the_smallest"],P32)
c("C11","proved",["C11_insert_adds_exactly_the_block","C10_every_history_refines_the_bag_spec"],P32+" Exact bound: nothing is lost iff stored + inserted < max_size + batch_size.")
c("C12","proved",["C12_size_counts_stored_items","C12_minus_infinity_is_not_counted"],P32+" The second theorem shows why -inf is excluded.")
c("C13","proved",["C13_draining_sorts"],P32)
c("C14","proved",["C14_eviction","C14_size_bound","C14_evicted_are_the_largest_refuted","C14_size_at_most_max_size_refuted"],P32+" Exact eviction behaviour; the two stronger claims a user may expect are refuted with witnesses.")
c("C15","proved",["C15_make_batched_pads","C15_insert_of_padded_block"],"")
c("C16","proved",["C16_path_is_the_ancestor_chain","C16_next_steps_towards_target"],"")
c("C17","proved",["C17_stream_eq_concat","C17_modes_agree","C17_auto_eq_off","C17_empty_fields_differ"],"")
c("C18","proved",["C18_mixer_bijective","C18_one_word_change","C18_one_word_types","C18_fingerprint"],"")
c("C19","proved",["C19_pair_collapse","C19_collide_iff","C19_fingerprint_collapse"],"")
c("C20","proved",["C20_words_injective","C20_bytes","C20_words","C20_fields"],"")
TB="Every history of insert/parallel_insert (all three backends) in a supported configuration: bucket_size 1..255, int32 slot indices, default or larger non-wrapping max_probes; any hash function; items whose equality coincides with equality of their words (no NaN / signed zero)."
c("C21","proved",["C21_bucket_count","C21_probe_permutation"],TB)
c("C22","proved",["C22_found_forever","C22_found_parallel"],TB)
c("C23","proved",["C23_no_false_positives","C23_no_false_positives_parallel","C23_never_moves"],TB)
c("C24","proved",["C24_set"],TB)
c("C25","proved",["C25_insert"],TB)
c("C26","proved",["C26_union","C26_inserted_mask","C26_total","C26_accelerators_complete","C26_xla_complete","C26_xla_complete_full","C26_no_loss_refuted","C26_no_loss_refuted_small"],TB+" The default backend is complete when m*F + m*(m-1)/2 <= max_probes, where m is the number of filled inputs and F bounds the full buckets an input meets before its m-th free slot (F = all full buckets always works, so a batch into a table without full buckets needs only m*(m-1)/2 rounds); a concrete default-configuration batch losing an item silently is exhibited with the real hash.")
c("C27","proved",["C27_indices","C27_equal_inputs"],TB)
c("C28","proved",["C28_unique_mask","C28_sound","C28_unique_ignores_the_table","C28_hashes_differ","C28_default_mode","C28_default_mode_wide","C28_reserved_pair_refuted","C28_infinite_cost_refuted","C28_approx_collision_refuted"],"Costs already rounded to float32; exactness for costs that are not NaN (see C59), soundness for all.")
c("C29","proved",["C29_every_interleaving","C29_terminates","C30_assignment"],TB+" bucket_size <= 32 (required by the kernel); loads may return any earlier value of the word; programs are interleaved arbitrarily.")
c("C30","proved",["C30_assignment","C30_pallas_total"],TB+" bucket_size <= 32; the order in which grid programs run is arbitrary.")
c("C31","proved",["C31_small_limit_insert_not_found","C31_small_limit_duplicates","C31_zero_limit_overwrites","C31_wide_bucket_invisible","C31_wrapping_limit_diverges","C22_found_forever"],"Concrete histories with the real hash for each unsupported configuration; the positive half is C22-C25.")
BP="Total bits < 2^32; one batch row (rows are independent); pack_words models the XLA kernel, the Pallas kernel performs the same computation per word."
c("C32","proved",["C32_roundtrip","C32_exact","C32_layout"],BP)
c("C33","proved",["C33_storage"],BP)
c("C34","proved",["C34_roundtrip","C34_exact","C34_length"],"All widths 1..32, all lengths.")
c("C35","proved",["C35_unpack_field_all","C35_unpack_field_selected","C35_set_unpacked","C35_out_of_range_refuted"],BP)
c("C37","proved",["C37_first_true_wins","C37_first_true_wins_nd","C37_coordinates_distinct","C37_rows_stay_together","C37_instances","C37_instances_one","C37_no_room_raises"],
  "The n-dimensional form clips out-of-range coordinates instead of dropping them (stated in C37_first_true_wins_nd). The index dtype must be able to hold the array length (see DESIGN.md).")
c("C38","proved",["C38_cheapest","C38_cheapest_hash","C38_exactly_one","C38_first","C38_index","C38_index_sized","C38_inverse","C38_inverse_no_cost","C38_x64_three_columns","C38_cheapest_x64_three","C38_all_ones_row_lost","C38_wide_hash_blind","C38_wide_keys_merge","C38_x64_four_columns_merge","C38_packed_tail_ignored","C38_packed_small_key_empty"],
  "Exact for up to four columns (three in x64 mode). The last six theorems prove the limits: an all-ones key after an unfilled item is lost without costs, wider keys merge, and packed types ignore the tail bytes.")
c("C36","proved",["C36_roundtrip","C36_equal_iff","C36_exact","C36_element","C36_element_other","C36_unpacked","C36_unannotated","C36_save_succeeds","C36_default_altered","C36_file_field_refuted"],
  "NumPy's .npz reader/writer is trusted to preserve keys, native dtypes, shapes and elements; importing the class by module and name is a parameter. Field names are dot-free and differ from the two metadata keys.")

c("C39","proved",["C39_roundtrip","C39_tree_map","C39_fields","C39_identity","C39_map_map","C39_structure","C39_cache_invisible","C39_replace","C39_replace_unknown","C39_to_tuple","C39_from_tuple_refuted","C39_extra_dropped_refuted"],
  "All classes, nesting depths, static field sets. Instances with only declared attributes come back identical; attributes attached later are leaves when flattening and are dropped when rebuilding (refutation). from_tuple is broken for classes without exactly one field (refutation).")
c("C40","proved",["C40_reports","C40_unique","C40_unstructured","C40_no_exception","C40_default","C40_len","C40_cached_reads","C40_empty_nested_refuted","C40_nested_unstructured_raises","C40_stale_cache_refuted","C41_index","C41_reshape","C41_reshape_succeeds","C41_flatten"],
  "For classes with fields none of whose nested classes is empty; the refutations show what happens otherwise and after assigning a field. Indexing, reshape and flatten (C41_*) conclude with the batch shape.")
c("C41","proved",["C41_elem","C41_default_elem","C41_index","C41_slice_in_range","C41_reshape","C41_reshape_succeeds","C41_flatten","C41_transpose","C41_transpose_default","C41_swapaxes","C41_stack","C41_stack_one","C41_concat","C41_concat_single","C41_expand_dims","C41_squeeze","C41_flip","C41_roll","C41_repeat","C41_take","C41_index_array","C41_split","C41_take_along_axis","C41_take_along_broadcast","C41_take_along_pick","C41_take_along_refused","C41_take_along_witness","C41_at_set","C41_at_set_one","C41_pad","C41_pad_one","C41_where","C41_where_scalar","C41_negative_axis_refuted","C41_whole_array_refuted","C41_squeeze_all_refuted","C41_where_refuted","C41_where_raises","C41_at_set_half_written_refuted","C41_index_past_batch_refuted","C41_transpose_refused"],
  "jax.numpy is modelled by the array operations of ArrayModel.v. Non-negative axes; the *_refuted theorems give the counterexamples for negative axes, whole-array variants and batch conditions on tensor fields.")
c("C42","proved",["C42_ne_is_not_eq","C42_eq_iff","C42_identity","C42_reflexive","C42_broadcast","C42_symmetric_transitive","C42_float_pitfalls","C42_item_laws","C42_hash_pair","C42_table"],
  "Both instances have the declared dtypes (other dtypes: C73) and at least one array leaf (== raises TypeError without one). bfloat16 and float8 are not modelled.")
c("C43","proved",["C43_pack","C43_backends","C43_elements","C43_exact","C43_policy"],
  "Integer and boolean leaves (float leaves and undeclared dtypes: C81); the class has a field and no empty nested class.")
c("C44","proved",["C44_words","C44_same_words","C44_faithful","C44_collision","C44_hash_pair","C44_table"],
  "Integer and boolean leaves. hash_fast_pair is the modelled pair hash (C17); the single hash uses the same words.")
c("C45","proved",["C45_at_set_array","C45_set_broadcast","C45_set_one","C45_set_many","C45_get_one","C45_get_many","C45_default_rows","C45_set_as_condition","C45_set_as_condition_one","C45_queue_of_instances","C45_queue_is_fifo","C45_stack_of_instances","C45_stack_is_lifo","C45_bad_items_raise","C45_two_dimensional_condition_refuted","C45_no_room_is_silent_refuted"],
  "Refinement of the list-level models (C01-C05, C37) by the structure-of-arrays storage. Values have the declared dtypes (set converts otherwise: C73); classes with a field and no empty nested class.")
c("C46","proved",["C46_instances_follow_their_keys","C46_arrays_hold_the_pairs","C46_reorder_modes_agree","C46_make_batched","C41_extensional"],"the queue modelled on a key array and a value instance (one array per field) simulates the queue of pairs of C09-C16; merges use the sort backend (the others agree by C07); keys stay abstract ordered keys")
c("C47","proved",["C47_found","C47_no_false_positives","C47_never_moves","C47_set","C47_insert","C47_lookup_parallel","C47_union","C47_total","C47_indices","C47_getitems","C47_readback","C47_default_backend"],
  "The table on arrays (TableArrays.v) simulates the table of items (C21-C31), so those theorems lift to whole instances. Inputs have the declared dtypes and batch shape (k,); indices naming stored items are exact when the in-batch deduplication is (as in C27).")
c("C48","proved",["C48_shape","C48_reports","C48_values","C48_unit_interval","C48_storable","C48_equals_itself","C48_every_instance","C48_fits_declared_bits_refuted"],
  "jax.random is an arbitrary generator whose draws have the requested shape and range (prng_ok).")
c("C49","proved",["C49_iff","C49_construct","C49_unvalidated","C49_batches_pass","C49_default_passes","C49_random_passes","C49_own_batch","C49_common_batch_refuted","C49_nested_contents_refuted","C49_operations_checked_refuted","C49_assignment_checked_refuted"],
  "isinstance of nested values and user validators are arbitrary predicates.")
c("C50","proved",["C50_accepts","C50_attributes","C50_default_fill","C50_same_default","C50_declared_fill","C50_factory","C50_nested","C50_packed_length","C50_packed_accepts","C50_packed_factory_refuted","C50_getitem","C50_clone_same","C50_clone","C50_clone_dtype_fill_refuted","C50_broadcast","C50_broadcast_accepts","C50_with_shape","C50_metadata","C50_metadata_keywords"],
  "A factory is a function of shape and dtype; fill values are scalars.")
c("C51","proved",["C51_get","C51_set","C51_set_exact","C51_set_number","C51_set_rowwise","C51_set_iff","C51_from","C51_unknown_name_refuted","C51_empty_refuted"],
  "All dtypes; a float assigned to a field of more than one bit is finite, not negative and below 2^32 (elsewhere jax leaves the conversion to the platform). Classes with a field and no empty nested class; fewer than 2^32 bits per element.")
c("C52","proved",["C52_moveaxis","C52_rot90","C52_flip_axes","C52_roll_axes","C52_repeat_counts","C52_vstack","C52_hstack","C52_column_stack","C52_dstack","C52_vstack_scalar","C52_column_stack_scalar","C52_hstack_scalar","C52_broadcast_to","C52_broadcast_arrays","C52_flip_all","C52_squeeze_all","C52_take_flat","C52_concat_flat","C52_atleast_scalar","C52_atleast","C52_tile","C52_mixed_stack_refuted","C52_default_axis_refuted","C52_moveaxis_negative_refuted","C52_moveaxis_refused","C52_flip_refused","C52_rot90_refused"],
  "Non-negative batch axes for the axis operations; classes of scalar fields for the whole-array forms.")
c("C53","proved",["C53_equal","C53_not_equal","C53_equal_all","C53_full_like","C53_full_like_elem","C53_full_like_entries","C53_zeros_like","C53_ones_like","C53_ones_like_entries","C53_casted_fits","C53_astype","C53_where_conditions","C53_where_strict","C53_where_strict_raises","C53_where_int","C53_where_int_scalar","C53_promote_id","C53_where_int_dtype_refuted"],
  "astype between boolean and integer dtypes (all conversions: C72, C73); where with a Python int: the converted value for float fields is a parameter.")
c("C54","proved",["C54_pad_constant","C54_pad_constant_one","C54_pad_copy","C54_pad_copy_one","C54_edge","C54_wrap","C54_reflect","C54_symmetric","C54_mirror_unique","C54_pad_width","C54_pad_arg","C54_two_ints_refuted","C54_pad_stat","C54_pad_stat_entries","C54_pad_stat_one","C54_pad_stat_length","C54_pad_stat_length_zero","C54_pad_stat_length_one","C54_pad_maximum_refuted"],
  "Mode constant without constant_values is C41_pad. The statistic of the modes maximum, minimum and mean is a parameter (so is the rounding of mean); stat_length, linear_ramp and empty are not modelled.")
c("C55","proved",["C55_interrupted","C55_untouched","C55_last_save","C55_no_mixture","C55_overwrite_loses_refuted","C55_path","C55_path_refuted","C55_same_file","C55_class_load"],
  "The archive's behaviour when writing stops (NumPy/zipfile) is part of the model. Links, relative paths, concurrent writers and fsync are not.")
c("C56","proved",["C56_migrate","C56_subset","C56_fails_iff","C56_dtype_refuted","C56_dtype_packed","C56_bits_in_file"],
  "Classes without a field named __xtructure_bitpack__ and without validate=True.")
c("C57","proved",["C57_finite","C57_every_history","C57_no_nan_stored","C57_nan_items_are_stored_refuted"],
  "Sort backend of the merge; keys of the queue's own key dtype; -inf keys excluded (see C12).")
c("C58","proved",["C58_lookup","C58_found","C58_nan_never_found","C58_contents","C58_insert","C58_batch","C58_batch_total","C58_batch_complete","C58_lookup_parallel","C58_words","C58_numeric","C58_separated","C58_instances","C58_float_duplicates_refuted"],
  "Batch completeness under the dedupe hypothesis of C21; items that are == with different bits must not share a fingerprint (automatic without -0.0).")
c("C59","proved",["C59_not_lost","C59_lost","C59_complete","C59_complete_accelerators","C59_unique_mask","C59_nan_cost_refuted"],
  "Scatter-min propagates NaN (XLA's minimum); costs already float; grouping hypothesis as in C28.")
c("C60","proved",["C60_flip_twice","C60_roll_roll","C60_roll_zero","C60_roll_back","C60_transpose_transpose","C60_transpose_identity","C60_transpose_back","C60_reverse_axes_twice","C60_swapaxes_twice","C60_moveaxis_back","C60_rot90_rot90","C60_rot90_full","C60_squeeze_expand","C60_expand_squeeze","C60_reshape_reshape","C60_reshape_same","C60_reshape_back","C60_unflatten","C60_concat_split","C60_split_concat","C60_index_stack","C60_stack_index","C60_get_set","C60_set_get","C60_set_set","C60_set_commute","C60_pad_slice","C60_take_take","C60_take_back","C60_split_unsorted_refuted"],
  "Axes that are passed on to the fields unchanged are non-negative and below the batch rank (negative ones are C41/C52's refutations); classes have fields and no empty nested class where the code consults the batch shape.")
c("C61","proved",["C61_rounding","C61_exact_small","C61_monotone","C61_unique_mask","C61_default_mode","C61_cheapest_refuted","C61_float64_case"],
  "The promotion rule (integer array with the Python float inf gives the default float type, converted by rounding to nearest-even) is trusted; the number p of significant bits is a parameter (24, or 53 with x64).")
c("C62","proved",["C62_table_contents","C62_table_same","C62_table_unconditional_refuted","C62_heap_same","C62_heap_same_pairs","C62_heap_ties_refuted","C62_enqueue_split","C62_push_split","C62_dequeue_split","C62_pop_split"],
  "Two arbitrary programs compared by what the caller sees; the table part composes C22-C26, the queue part the bag specification of C10-C12.")
c("C63","proved",["C63_best_costs","C63_lost_item_overwrites_refuted"],
  "Invariant over the loop; composes C23, C26, C27, C28, C37 and the program lemmas of C62. The loop itself is user code, written in PropCost.v; concrete loop C63_case.")
c("C64","proved",["C64_blocks_of_any_length","C64_long_blocks_lose_nothing","C64_size_exact_without_oversize_blocks","C64_drain_loop_returns_everything","C64_short_blocks_lose_items","C64_oversize_blocks_make_size_undercount"],
  "Same model as C09-C14 with a weaker invariant (GInv): any buffer length, buffer counter may undercount. Total number of offered items below 2^31.")
c("C65","proved",["C65_returned_values_come_from_the_user","C65_padding_is_not_the_default_refuted","C65_fresh_queue_returns_defaults"],
  "Provenance invariant on the model of C09-C14; no length or key restriction.")
c("C66","proved",["C66_line","C66_grid","C66_small_batches_show_everything","C66_single_and_keywords","C66_single_instance_text","C66_text_determines_fields"],
  "The drawing of the table by the rich library is not modelled: the cells, their order, and the printed shape are.")
c("C67","proved",["C67_agree_cost","C67_agree_no_cost","C67_legacy_cheapest","C67_legacy_first","C67_legacy_inverse","C67_infinite_cost_refuted","C67_all_ones_refuted","C67_wide_keys_refuted"],
  "jnp.unique is modelled as a stable lexicographic sort followed by run detection; return_index of the legacy function with costs is not modelled.")
c("C68","proved",["C68_any_back_end_refines_the_bag_spec","C68_keys_do_not_depend_on_ties_or_values","C68_stable_queue_is_an_instance","C68_values_of_ties_do_depend_on_the_back_end"],
  "Back ends are arbitrary functions of their inputs and of a call-site tag, chosen per call; the contract on merges is only assumed for sorted inputs.")
c("C69","proved",["C69_decoration","C69_instances","C69_fields_read_back","C69_library_names","C69_user_definitions","C69_safe_names","C69_default","C69_subclass","C69_property_field_refuted","C69_clashes_refuted","C69_own_hash_refuted","C69_subclass_refuted"],
  "Python attribute lookup (data descriptors before the instance dictionary before other class attributes) and the dataclass rules for defaults and inheritance are modelled; single inheritance, no user-defined dunder methods.")
c("C70","proved",["C70_isclose","C70_allclose","C70_allclose_elem","C70_allclose_isclose","C70_allclose_laws","C70_allclose_transitive_refuted","C70_allclose_eq","C70_can_cast","C70_can_cast_class","C70_can_cast_like","C70_can_cast_other","C70_safe_rule","C70_safe_int64_refuted","C70_safe_astype","C70_unsafe_loses"],
  "The closeness test on two numbers (jnp.isclose with given tolerances) and the casting rule are parameters; numpy's safe rule is modelled for bool, 8-64 bit integers and 16-64 bit floats. Both arguments have the same dtypes (no promotion) for isclose/allclose.")
c("C71","proved",["C71_block_tuple","C71_block_tuple_refuted","C71_block_tuple_in_list","C71_block_lists","C71_block","C71_block_grid","C71_block_row","C71_block_small","C71_block_singles_grid","C71_block_singles","C71_block_level","C71_block_rejects","C71_block_tensor_refuted"],
  "C71_block is for any depth not above the number of batch axes (the specification join_levels uses the C41 concat, whose positions are C41_concat); C71_block_small reduces the other case to it. Nested lists only: with tuples jnp.block is never given the nested structure (DESIGN section 6).")
c("C72","proved",["C72_order","C72_float_when","C72_widest","C72_available","C72_upper","C72_least","C72_nested","C72_nested_refuted","C72_lands","C72_exact","C72_nearest","C72_overflow","C72_monotone","C72_truncate","C72_integers","C72_truth","C72_specials","C72_round_trip"],
  "The promotion table and the conversion are jax's documented behaviour, modelled in PromoteModel.v (bool, (u)int8..64, float16/32/64; no weak types, bfloat16, float8); numbers are counted in units of 2^-1074, so every number of every dtype is an integer. A float outside the range of an integer dtype is platform-defined in jax; C72_truncate speaks of it only modulo 2^w.")
c("C73","proved",["C73_bring","C73_concat","C73_stack","C73_where","C73_equal","C73_result_type","C73_astype","C73_eq","C73_eq_numbers","C73_ne","C73_eq_lossy","C73_at_set","C73_at_set_one","C73_pad","C73_pad_one","C73_agree"],
  "`brought`/`converted` say entry by entry what the converted arrays hold; `variant` is the class with other dtypes. Instances of one batch shape for ==; weakly typed arrays not modelled.")
c("C74","proved",["C74_types","C74_accepts","C74_types_history","C74_key_order","C74_insert","C74_rejects","C74_every_history","C74_wider_raises","C74_stored","C74_stored_float16","C74_int_keys_are_stored_refuted","C74_int_order_refuted"],
  "Types follow jax's tracing rules for lax.cond, lax.scan and lax.scatter as modelled in HeapTypes.v (both branches of a cond must agree in dtype). Float queues, sort-based merging; NaN keys allowed, keys that become -inf excluded as in C57; weakly typed keys (Python scalars) not modelled.")
c("C75","proved",["C75_lookup","C75_found","C75_contents","C75_insert","C75_batch","C75_batch_total","C75_batch_complete","C75_lookup_parallel","C75_family","C75_widening","C75_family_mixed","C75_other_bytes_refuted","C75_lost_number_refuted"],
  "C75_lookup ... C75_lookup_parallel hold for any family of items (TableConv.v: as many words as each other, and a stored converted item == a given one exactly when the bytes agree); C75_family and C75_family_mixed show that the dataclass instances of the statement are such families, for == with promotion (C73), jax's conversions (C72) and the real hash. Configurations as in C22. Weakly typed inputs are not modelled; a comparison that raises counts as not equal (it does not occur for instances of the class).")
c("C76","proved",["C76_take","C76_take_flat","C76_take_along","C76_take_along_scalar_only","C76_take_empty_axis","C76_default_fill","C76_fill_only","C76_take_along_broadcast","C76_take_along_refused","C76_take_along_flat","C76_axis_none"],
  "reads / reads_along (PropTake.v) say what an index reads. Index arithmetic is exact: index arrays of a dtype too narrow for the axis length are not modelled. The conversion of fill_value to each field's dtype is a parameter. take_along_axis with axis=None, and with indices that broadcast against the fields, is not modelled.")
c("C77","proved",["C77_native","C77_converted","C77_at_set","C77_at_set_one","C77_set_as_condition","C77_set_as_condition_one","C77_queue_is_fifo","C77_stack_is_lifo","C77_bad_items_raise","C77_lossless_refuted"],
  "decl (PropConvStore.v) is the item with every array converted to the declared dtype. jax.numpy warns (FutureWarning) on an unsafe conversion; warnings are not modelled. C77_lossless_refuted: 300 for a uint8 field is dequeued as 44.")
c("C78","proved",["C78_converted_values","C78_raises","C78_native_suits","C78_make_batched","C78_dtype_decides_refuted","C78_taken_is_kept_refuted"],
  "Keys are the abstract keys of KeyModel.v (keys of other dtypes are C74). The per-leaf dtype analysis is HeapTypes.insert_t (C74_types). C78_dtype_decides_refuted: a full block of int32 values for uint8 fields raises, a padded one is taken modulo 256.")
c("C79","proved",["C79_queue","C79_queue_unstable","C79_queue_accepted","C79_queue_default","C79_queue_refused","C79_words","C79_numbers","C79_sort_stable","C79_int","C79_back_ends","C79_cut","C79_stream","C79_spelling_traps","C79_packed_widths","C79_empty_field_traps","C79_hash","C79_hash_settings","C79_table","C79_table_default","C79_table_large_buckets","C79_table_accepted","C79_packing","C79_packing_accepted","C79_packing_refused"],
  "Strings are ASCII. All variables of one structure are read together (the code reads some at import, some while tracing). A queue with blocks of one key is excluded for the fused kernel, which would be given an empty array. The table theorem needs batches that cannot lose items (C62) and no probe limit below the number of buckets; the hash theorem a class with at least one word (C17).")
c("C80","proved",["C80_schema","C80_bits","C80_read","C80_read_entries","C80_read_unknown","C80_slice","C80_slice_traps"],
  "Without the schema's strings (mode, class, dtype names). Fewer than 2^32 bits per instance. Names without dots (Python identifiers). C80_slice_traps: slices with a negative start or step, or a stop past the end, are not Python's and read bits of other fields.")
c("C81","proved",["C81_pack","C81_backends","C81_elements","C81_survives","C81_integers","C81_fraction_lost"],
  "Conversions are jax's astype (PromoteModel.v); what astype does to a float outside (-1, 2^32) is fixed to one choice in the model but the theorem claims only that b bits remain. bfloat16 and float8 are not modelled.")
c("C82","proved",["C82_batch","C82_structured","C82_same_answer","C82_default_shape","C82_array_entry","C82_nested_entry","C82_unstructured_hides_shapes","C82_dtype","C82_dtype_actual","C82_default_dtype","C82_history","C82_replace_is_safe","C82_stale_refuted","C82_copy_carries_rebuild_cures"],"LiveModel carries the three caches of every instance at every depth. The careful condition is about paths: an assignment at p is safe when no prefix of p has been asked since the last rebuild; C82_stale_refuted shows that all six questions go stale otherwise. No two attributes hold the same nested object; field values are arrays or instances.")
c("C83","proved",["C83_by_range","C83_reversed","C83_loop_never_ends","C83_no_list","C83_unpack_raises","C83_zip","C83_contains","C83_empty_batch","C83_single","C83_nothing","C83_single_refuted"],"Python's sequence protocol over __getitem__ (no __iter__ in the package); out-of-range integers are clamped by jax. Non-termination: no number of __getitem__ calls ends the loop.")
c("C84","proved",["C84_words","C84_same_words","C84_numbers","C84_equal_hash","C84_stored_equal","C84_family","C84_lookup","C84_single_lookup","C84_single_insert","C84_batch_loses_refuted"],"C84_family makes all theorems about tables for families of items (C75_lookup, C75_insert, C75_batch, C75_contents, ...) apply in packed mode. NaN and -0.0 are excluded from table items, and the comparison of the two dtypes must not round the numbers (comparable). The sentence about batches is the refutation C84_batch_loses_refuted. Float-to-uint32 conversion outside 0..2^32 is the platform's (integer_part).")
c("C85","proved",["C85_same_definition","C85_alike_equivalence","C85_combine","C85_fields","C85_refused","C85_extra_blocks","C85_rebuilt_combine","C85_cache_harmless","C85_paths","C85_paths_in_field_order"],"Static values are compared with an equality (eqA) that is assumed to be Leibniz equality on them. __post_init__ hooks are not modelled. The function given to tree_map is one on arrays, raising when given an instance (C85_extra_blocks: any function).")
c("C86","proved",["C86_set","C86_unfit_is_silent","C86_single_scalars","C86_condition","C86_condition_unfit","C86_array", "C86_array_condition", "C86_array_condition_unfit","C86_array_is_torn_refuted","C86_single_is_torn_refuted","C86_own_class","C86_foreign_is_silent","C86_foreign","C86_foreign_condition","C86_foreign_is_torn_refuted"],"Which of several entries addressing one row is kept is left open in C86_set (jax leaves it open). Index dtypes without room: C45_no_room_is_silent_refuted.")
c("C87","proved",["C87_slice","C87_rows","C87_upto","C87_from","C87_last","C87_backwards","C87_step_zero","C87_cut_and_join","C87_set_slice","C87_set_unfit_is_silent","C87_set_get","C87_get_set","C87_mask","C87_mask_rows","C87_mask_unfit","C87_set_mask","C87_set_mask_unfit","C87_last_axis_scalars","C87_last_axis_refuted"],"selected is a specification by filtering 0..n-1, independent of the arithmetic of slice.indices. Masks are concrete (not traced); writing through a mask is modelled for masks over the first axis.")
c("C88","proved",["C88_fieldwise","C88_mixture_raises","C88_returns","C88_allclose","C88_lists","C88_lists_mixture_raises","C88_empty_list_raises","C88_where","C88_where_without_fields_refuted","C88_update","C88_can_cast","C88_arrays","C88_lists_returns","C88_allclose_returns","C88_where_returns","C88_where_value_returns","C88_update_returns","C88_update_value_returns","C88_can_cast_returns","C88_instances"],"The jax functions are a parameter; that they raise on anything that is not an array or a number is assumed (as_leaf). update_on_condition with at least one update. Classes are nominal.")
c("C89","proved",["C89_concat","C89_stack","C89_repeat","C89_repeat_counts","C89_tile","C89_flip","C89_roll","C89_take","C89_split","C89_pad","C89_reorder","C89_write","C89_read_back","C89_reorder_undone","C89_sort_by","C89_where","C89_rows_determine","C89_append_assoc","C89_witness"],"concat and stack of at least two (stack: one) instances of a class with fields; tile and where for classes whose fields are scalars (C52, C41 say what they do otherwise).")
c("C90","proved",["C90_frontier","C90_settled","C90_overflow","C90_work","C90_room"],"The first two within the room of the queue (C14 says what an overflow evicts) and the lossless condition of C62/C63 (C63_lost_item_overwrites_refuted says why).")
c("C91","proved",["C91_sound","C91_bound","C91_shortest","C91_first_handed_out_refuted","C91_astar","C91_reconstruct","C91_independent","C91_estimates","C91_room","C91_negative_refuted","C91_goal","C91_goal_astar","C91_head","C91_dijkstra"],"Conditions of C90. Addition of costs is any operation that grows and is monotone; finite costs (C59, C61 say what NaN and integer costs do).")
