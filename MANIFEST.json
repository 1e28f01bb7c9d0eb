{
 "claims": [
  {
   "property": "C01",
   "status": "proved",
   "theorems": [
    "C01_wire_roundtrip",
    "C01_buffer_roundtrip",
    "C01_writer_accepts"
   ],
   "note": "Round trip for every type of the universe, nominal recursive types included. Values excluded by all_carried: instants in (-1s,0) (see C06), flat errors (see C08) and custom values whose user-written lift is not the inverse of lower."
  },
  {
   "property": "C02",
   "status": "partial",
   "theorems": [
    "C02_hostile_no_panic_partial",
    "C02_bounded_stack",
    "C02_recursive_stack_refuted",
    "C02_hostile_typed",
    "C02_duration_panics_exactly",
    "C02_timestamp_panics_exactly",
    "C02_hostile_no_panic_refuted"
   ],
   "note": "The full property is false of the code: reading a Duration or Timestamp with overflowing nanoseconds and a truncated flat error panic, and recursive types can exhaust the stack. Exact panic conditions and the panic-free fragment are proved."
  },
  {
   "property": "C03",
   "status": "proved",
   "theorems": [
    "C03_truncated_rejected",
    "C03_truncated_is_error"
   ],
   "note": ""
  },
  {
   "property": "C04",
   "status": "proved",
   "theorems": [
    "C04_junk_rejected",
    "C04_accepts_exactly"
   ],
   "note": ""
  },
  {
   "property": "C05",
   "status": "proved",
   "theorems": [
    "C05_prefix_free",
    "C05_sequences_unambiguous"
   ],
   "note": "For carried values (see C01)."
  },
  {
   "property": "C06",
   "status": "partial",
   "theorems": [
    "C06_timestamp_roundtrip_partial",
    "C06_timestamp_refuted"
   ],
   "note": "False of the code for every instant strictly inside the second before 1970 (they come back mirrored); proved for all other instants."
  },
  {
   "property": "C07",
   "status": "proved",
   "theorems": [
    "C07_oversized_panics",
    "C07_length_prefix",
    "C07_negative_length_rejected"
   ],
   "note": ""
  },
  {
   "property": "C08",
   "status": "partial",
   "theorems": [
    "C08_unknown_tag_rejected",
    "C08_tag_is_position",
    "C08_every_variant_accepted",
    "C08_flat_error_liftable_refuted",
    "C08_flat_error_from_foreign"
   ],
   "note": "Tags: proved. The last sentence is false for flat errors, which only Rust-to-foreign and foreign-to-Rust, not Rust-to-Rust, can carry."
  },
  {
   "property": "C09",
   "status": "proved",
   "theorems": [
    "C09_last_entry_wins",
    "C09_map_order_insensitive",
    "C09_set_members"
   ],
   "note": ""
  },
  {
   "property": "C10",
   "status": "partial",
   "theorems": [
    "C10_rust_to_python_partial",
    "C10_python_reads_it_partial",
    "C10_python_to_rust_partial",
    "C10_python_returns_to_rust_partial",
    "C10_python_writes_rust_bytes_partial",
    "C10_flat_error_tag",
    "C10_nested_options_refuted",
    "C10_unhashable_refuted",
    "C10_colliding_keys_refuted"
   ],
   "note": "Every Rust value that Python can hold arrives as the same value (existence of the counterpart, and that the reader returns it), and everything Python writes is read by Rust as the same value. Missing because false: nested options collapse, map keys of record type without Hash raise, keys less than a microsecond apart collide, instants in the second before 1970 (C06); values with f32 inside map keys written by Python are excluded; a flat error keeps only its variant on the way to Rust."
  },
  {
   "property": "C11",
   "status": "partial",
   "theorems": [
    "C11_python_instant_from_rust_partial",
    "C11_python_instant_to_rust_partial",
    "C11_python_instant_refuted",
    "C11_python_duration_from_rust",
    "C11_python_duration_to_rust",
    "C11_python_negative_duration",
    "C11_python_returned_duration_refuted",
    "C11_kotlin_instant_from_rust_partial",
    "C11_kotlin_instant_to_rust_partial",
    "C11_kotlin_instant_refuted",
    "C11_kotlin_duration_from_rust",
    "C11_kotlin_duration_to_rust",
    "C11_ruby_instant_from_rust_partial",
    "C11_ruby_instant_to_rust_partial",
    "C11_ruby_instant_refuted",
    "C11_ruby_duration_from_rust_partial",
    "C11_ruby_duration_refuted",
    "C11_ruby_duration_to_rust"
   ],
   "note": "Both directions for the three languages, including refusal out of range. False and refuted: instants inside the second before 1970, Ruby durations of 2^63 seconds or more, negative durations returned by Python callbacks."
  },
  {
   "property": "C12",
   "status": "partial",
   "theorems": [
    "C12_size_suffices",
    "C12_never_overruns",
    "C12_lowering_succeeds",
    "C12_rust_bytes_partial"
   ],
   "note": "Size bound, success and no overrun are proved for every type and value. Equality with the bytes of Rust is proved for every value except flat errors, which Kotlin writes without the message."
  },
  {
   "property": "C13",
   "status": "partial",
   "theorems": [
    "C13_bytes_preserved_partial",
    "C13_never_stuck_partial",
    "C13_freed_exactly_once_partial",
    "C13_arguments_freed_partial",
    "C13_failed_lift_leaks_refuted",
    "C13_alloc_size_refuted",
    "C13_failed_reserve_ambiguous_refuted"
   ],
   "note": "Proved for every history in which requested sizes fit usize: bytes and capacities refine an abstract list of buffers, no call gets stuck, every block freed exactly once, malformed headers refused. Refuted in three corners: a failed lift leaks the buffers of later arguments; on 32-bit targets alloc truncates the size; a refused reserve does not tell whether it consumed the buffer."
  },
  {
   "property": "C14",
   "status": "partial",
   "theorems": [
    "C14_one_outcome_partial",
    "C14_every_outcome_covered_partial",
    "C14_default_harmless",
    "C14_payload_drop_panics_once",
    "C14_payload_drop_refuted",
    "C14_stale_status_refuted",
    "C14_async_lift_panic_refuted"
   ],
   "note": "Proved for every function whose panic payload has a non-panicking destructor and a status that starts as success (any status for failing calls). Refuted: success does not reset a stale status; a payload panicking twice on drop unwinds; an async lift that panics is outside catch_unwind."
  },
  {
   "property": "C15",
   "status": "proved",
   "theorems": [
    "C15_cases",
    "C15_called_once",
    "C15_not_called_on_failure",
    "C15_no_other_call",
    "C15_failure_reported",
    "C15_async_same_outcome"
   ],
   "note": "Arbitrary argument lists, lifts, function bodies and lowerings; synchronous and asynchronous."
  },
  {
   "property": "C16",
   "status": "proved",
   "theorems": [
    "C16_bytes_seen",
    "C16_mutations_land",
    "C16_malformed_refused",
    "C16_malformed_mutable_refused",
    "C16_malformed_reported"
   ],
   "note": "Arbitrary memories and descriptors; refusal reported as an unexpected error by the scaffolding call."
  },
  {
   "property": "C17",
   "status": "proved",
   "theorems": [
    "C17_lift_reaches_what_was_lowered",
    "C17_calls_reach_the_implementation",
    "C17_handles_nonzero_and_tagged",
    "C19_nothing_released_is_used"
   ],
   "note": "Two-sided machine of Rust heap, Arc counts, proxies, double Arcs and the foreign handle map; every history, every allocation address."
  },
  {
   "property": "C18",
   "status": "proved",
   "theorems": [
    "C18_every_history_legal",
    "C18_remove_succeeds_once",
    "C18_invalid_forever_after_remove",
    "C18_calls_can_finish"
   ],
   "note": "Atomic-step machine for the locked maps (Python, Swift, Ruby) and the Kotlin concurrent map; Kotlin histories below 2^63 steps because its counter is 64 bits wide."
  },
  {
   "property": "C19",
   "status": "proved",
   "theorems": [
    "C19_nothing_released_is_used",
    "C19_only_live_objects_used_or_dropped",
    "C19_dropped_exactly_once",
    "C19_alive_iff_referenced",
    "C19_foreign_object_kept_iff_referenced",
    "C19_no_leak"
   ],
   "note": "Same machine: no use of released memory, exact drop accounting, alive iff referenced, no leak on either side. Each FFI function is one atomic step."
  },
  {
   "property": "C20",
   "status": "partial",
   "theorems": [
    "C20_never_used_after_free_partial",
    "C20_destructor_at_most_once_partial",
    "C20_destructor_ordered_partial",
    "C20_destructor_runs_partial",
    "C20_later_calls_rejected_partial",
    "C20_passed_after_destroy_refuted",
    "C20_passed_while_destroyed_refuted"
   ],
   "note": "Every interleaving of calls, destruction and garbage collection by any number of threads is covered; passing the object as an argument is excluded from the positive theorems because the code is unsafe there, shown by the two refutations (FfiConverter.lower clones the handle without the call counter)."
  },
  {
   "property": "C21",
   "status": "proved",
   "theorems": [
    "C21_at_most_once",
    "C21_all_called_after_cancel_or_free",
    "C21_at_most_one_waits",
    "C21_called_when_woken_ready_or_cancelled",
    "C21_settles"
   ],
   "note": "Interleaving machine at lock granularity; any number of concurrent polls, wakes, cancels, frees; arbitrary user future."
  },
  {
   "property": "C22",
   "status": "proved",
   "theorems": [
    "C22_no_lost_wakeup",
    "C22_no_lost_wakeup_sequential",
    "C22_not_told_in_vain"
   ],
   "note": ""
  },
  {
   "property": "C23",
   "status": "proved",
   "theorems": [
    "C23_late_polls_are_ready",
    "C23_waiting_called_ready",
    "C23_unfinished_reports_cancelled"
   ],
   "note": ""
  },
  {
   "property": "C24",
   "status": "proved",
   "theorems": [
    "C24_polled_correctly",
    "C24_results_right",
    "C24_delivered_once"
   ],
   "note": ""
  },
  {
   "property": "C25",
   "status": "proved",
   "theorems": [
    "C25_freed_exactly_once",
    "C25_used_in_order",
    "C25_result_delivered",
    "C25_map_empty",
    "C25_no_hang",
    "C25_memory_released"
   ],
   "note": "Composition of the foreign loop (Python, Kotlin, Swift alike) with the Rust future machine; every interleaving, wake pattern and task cancellation; also no hang and memory release."
  },
  {
   "property": "C26",
   "status": "proved",
   "theorems": [
    "C26_called_once",
    "C26_received_once",
    "C26_never_pending_once_sent",
    "C26_result_received",
    "C26_no_lost_wake",
    "C26_dropped_callback_once",
    "C26_channel_freed_once"
   ],
   "note": "oneshot.rs and foreign_async_call as an interleaving machine of the Rust future, the foreign completion call and the channel reference counts. Every history of polls, completion and drop; the foreign code completes at most once (see C46)."
  },
  {
   "property": "C27",
   "status": "proved",
   "theorems": [
    "C27_read_back",
    "C27_any_default_refuted"
   ],
   "note": "All item kinds. The hypothesis recordable asks that defaults have the type of their argument; C27_any_default_refuted shows the macros do not check that, and such an item cannot be read."
  },
  {
   "property": "C28",
   "status": "proved",
   "theorems": [
    "C28_trailing_bytes_ignored",
    "C28_only_consumed_bytes_matter"
   ],
   "note": "For every recorded item, and for every data the reader accepts."
  },
  {
   "property": "C29",
   "status": "partial",
   "theorems": [
    "C29_never_panics_refuted",
    "C29_never_overflows_refuted",
    "C29_padded_data_partial",
    "C29_truncated_never_accepted"
   ],
   "note": "The full statement is refuted (read_string panics on cut-off strings, nested types exhaust the stack). Proved: with 65535 bytes after the data and stack for its length, any data gives an item or an error; truncated items are never accepted."
  },
  {
   "property": "C30",
   "status": "proved",
   "theorems": [
    "C30_all_parts_or_no_build",
    "C30_long_names_stop_the_build"
   ],
   "note": "Exact characterisation of when a chain of concatenations builds and what it then contains."
  },
  {
   "property": "C31",
   "status": "partial",
   "theorems": [
    "C31_udl_checksums_agree",
    "C31_udl_docstring",
    "C31_checksums_agree",
    "C31_docstring_refuted"
   ],
   "note": "Checksums agree on both sides, for items recorded by macros and for UDL items. Independence from docstrings is proved for UDL items and refuted for items recorded by macros."
  },
  {
   "property": "C32",
   "status": "proved",
   "theorems": [
    "C32_udl_different_signatures",
    "C32_different_items_different_bytes"
   ],
   "note": "The bytes fed to the checksum form a prefix-free, injective code, for recorded items and for UDL items."
  },
  {
   "property": "C33",
   "status": "partial",
   "theorems": [
    "C33_distinct_refuted",
    "C33_distinct_modules_refuted",
    "C33_distinct_case_refuted",
    "C33_distinct_crates_refuted",
    "C33_distinct_partial",
    "C33_builtins_distinct",
    "C33_builtins_not_items",
    "C33_ffibuffer_names",
    "C33_bindings_call_exported",
    "C33_pipeline_calls_exported",
    "C33_builtins_exported"
   ],
   "note": "Equality of the names on both sides is proved for every item, both generators and any renaming. Distinctness is refuted in general (underscores, modules, letter case, crate names) and proved under a naming discipline: no underscore in type names, no crate name containing _fn_ or _checksum_, up to letter case."
  },
  {
   "property": "C34",
   "status": "partial",
   "theorems": [
    "C34_terminates",
    "C34_flagged_contain_themselves",
    "C34_every_cycle_partial",
    "C34_exact_partial",
    "C34_missed_refuted",
    "C34_order_refuted",
    "C34_namesake_refuted"
   ],
   "note": "Detection terminates; what is flagged contains itself (if no namesakes), every cycle has a flagged member, and the flags are exact when no type is on two cycles. Refuted in general: members of overlapping cycles are missed depending on hash order, and a namesake from another crate causes a false flag."
  },
  {
   "property": "C35",
   "status": "partial",
   "theorems": [
    "C35_types_terminates",
    "C35_ffi_terminates",
    "C35_types_kept_partial",
    "C35_ffi_kept",
    "C35_one_per_name",
    "C35_types_in_order_partial",
    "C35_ffi_in_order",
    "C35_namesake_refuted"
   ],
   "note": "Termination, keeping one definition of each converter name, and order (a definition follows what it needs unless that needs it back) are proved for FFI definitions and, when converter names tell types apart, for type definitions. Refuted without that: a type with a namesake in another crate loses its definition."
  },
  {
   "property": "C36",
   "status": "partial",
   "theorems": [
    "C36_recorded",
    "C36_python",
    "C36_component_interface_partial",
    "C36_large_refuted"
   ],
   "note": "Python exact for every enum rustc accepts; Kotlin/Swift/Ruby when all discriminants are below 2^63, and refuted beyond (a repr(u64) enum gets a negative discriminant). Discriminants written as integer literals only, as the macros require."
  },
  {
   "property": "C37",
   "status": "partial",
   "theorems": [
    "C37_python_partial",
    "C37_kotlin_partial",
    "C37_swift_partial",
    "C37_map_keys_refuted",
    "C37_namesakes_refuted"
   ],
   "note": "Proved for Python, Kotlin and Swift names when no name is shared by two user types and map keys are builtin (Swift: if camel-casing is injective). Refuted for maps with user-defined keys and for namesakes from different crates. Ruby is not modelled."
  },
  {
   "property": "C38",
   "status": "partial",
   "theorems": [
    "C38_types_known_partial",
    "C38_nothing_else",
    "C38_one_type_per_name_partial",
    "C38_function_names",
    "C38_function_not_type_partial",
    "C38_constructors_on_objects",
    "C38_definitions_once",
    "C38_methods_owned",
    "C38_trait_methods",
    "C38_box_refuted",
    "C38_two_types_refuted",
    "C38_trait_impl_refuted"
   ],
   "note": "Proved for every list of metadata items added to a component interface. Types inside a Box, and the trait an object implements, may stay unknown (refuted theorems give the counterexamples). UDL parsing is not modelled."
  },
  {
   "property": "C39",
   "status": "partial",
   "theorems": [
    "C39_mentions_partial",
    "C39_known_types_partial",
    "C39_names",
    "C39_callback_names_partial",
    "C39_resolves",
    "C39_python_mentions_partial",
    "C39_python_names",
    "C39_external_refuted",
    "C39_box_refuted",
    "C39_constructor_result_refuted",
    "C39_constructor_error_refuted",
    "C39_callback_result_refuted",
    "C39_record_method_refuted",
    "C39_trait_impl_refuted",
    "C39_callback_key_refuted"
   ],
   "note": "Python: proved for every mention except boxes and custom types over user-defined types. Kotlin, Swift and Ruby: proved for the places the visitor reaches; the refuted theorems give a counterexample for each place it misses. Default values and excluded items are not modelled."
  },
  {
   "property": "C40",
   "status": "partial",
   "theorems": [
    "C40_in_its_group",
    "C40_nothing_else",
    "C40_errors",
    "C40_order_partial",
    "C40_order_refuted"
   ],
   "note": "Proved in full except that independence of the order needs each crate to declare one namespace; refuted without it. The BTreeSet is an insertion-ordered duplicate-free list."
  },
  {
   "property": "C41",
   "status": "proved",
   "theorems": [
    "C41_read_back",
    "C41_in_place",
    "C41_no_overlap",
    "C41_write_short",
    "C41_read_short",
    "C41_read_any",
    "C41_call",
    "C41_call_no_status"
   ],
   "note": "FfiSerialize for every FFI type that implements it, and the ffi-buffer scaffolding functions with and without a call status. Little-endian target with 64-bit pointers; floats are their bit patterns."
  },
  {
   "property": "C42",
   "status": "partial",
   "theorems": [
    "C42_slots",
    "C42_special_slots",
    "C42_recorded_positions",
    "C42_udl_order",
    "C42_call",
    "C42_bad_argument",
    "C42_bad_result",
    "C42_unliftable_result",
    "C42_unliftable_error",
    "C42_every_exception_partial",
    "C42_python_interrupt_refuted",
    "C42_never_stale",
    "C42_freed_at_most_once",
    "C42_held_not_freed",
    "C42_own_object",
    "C42_freed_when_dropped_partial",
    "C42_no_leak_partial",
    "C42_leak_refuted"
   ],
   "note": "Slots, order, calls, results and errors, and the life of handles are proved for every trait, outcome and history. False of the code in two cases, proved as _refuted: Python exceptions that are not an Exception are lost and Rust sees a default result; an object passed in a call where an earlier argument cannot be lifted is never freed. Async methods are C26/C46. The vtable struct is assumed to be laid out in declaration order (the generated struct has no repr(C))."
  },
  {
   "property": "C43",
   "status": "partial",
   "theorems": [
    "C43_terminates",
    "C43_one_answer",
    "C43_yes_is_right",
    "C43_no_is_right_partial",
    "C43_unsigned_partial",
    "C43_box_refuted",
    "C43_method_refuted"
   ],
   "note": "Terminates always; yes is always right with respect to definitions (fields and signatures); no is right when no type is boxed, and refuted for boxed ones. With respect to fields alone yes is refuted for records whose methods mention objects. Interfaces as library mode builds them (one per crate, every crate present)."
  },
  {
   "property": "C44",
   "status": "partial",
   "theorems": [
    "C44_accepted_partial",
    "C44_accepted_unchanged_partial",
    "C44_missing_refused",
    "C44_unchecked",
    "C44_own_library_accepted",
    "C44_runtime_version",
    "C44_record_method_refuted",
    "C44_record_field_refuted",
    "C44_python_callback_refuted",
    "C44_ruby_refuted",
    "C44_python_source_version_refuted",
    "C44_collision_refuted"
   ],
   "note": "Proved for functions, constructors and methods of objects/trait interfaces (and callback interfaces outside Python): accepted implies equal contract version and checksums, and equal items without a checksum collision; missing items refused everywhere; own library accepted. Refuted: record/enum methods and record fields are not covered, Python skips callback interfaces and (from sources) the contract version, Ruby checks nothing, 16-bit collisions."
  },
  {
   "property": "C45",
   "status": "proved",
   "theorems": [
    "C45_released_once_and_not_early"
   ],
   "note": "Arc strong count modelled explicitly, including wakers stored inside the user future."
  },
  {
   "property": "C46",
   "status": "partial",
   "theorems": [
    "C46_at_most_once_partial",
    "C46_completes_partial",
    "C46_not_completed_hangs",
    "C46_not_completed_refuted"
   ],
   "note": "Holds when lowering succeeds and the task is not cancelled. Refuted otherwise: Python (without declared error) and Kotlin never complete a call whose return value fails to lower, so Rust waits for ever; a cancelled Python task never completes either."
  },
  {
   "property": "C47",
   "status": "partial",
   "theorems": [
    "C47_received_or_discarded_partial",
    "C47_discarded_refuted"
   ],
   "note": "Every result is received or discarded with the channel, exactly one of the two. Refuted: discarded results leak their RustBuffers since RustBuffer has no destructor and nothing lifts them."
  },
  {
   "property": "C48",
   "status": "partial",
   "theorems": [
    "C48_rust_to_kotlin_partial",
    "C48_kotlin_reads_it_partial",
    "C48_kotlin_to_rust_partial",
    "C48_rust_to_ruby_partial",
    "C48_ruby_reads_it_partial",
    "C48_ruby_to_rust_partial",
    "C48_ruby_writes_rust_bytes_partial",
    "C48_ruby_u8_refuted",
    "C48_kotlin_nested_options_refuted",
    "C48_ruby_nested_options_refuted"
   ],
   "note": "As C10 for Kotlin and Ruby. False and refuted: Ruby reads u8 above 127 as negative; nested options collapse. Same exclusions as C10 (Ruby: f32 inside map keys)."
  },
  {
   "property": "C49",
   "status": "partial",
   "theorems": [
    "C49_records",
    "C49_enums",
    "C49_options",
    "C49_items_partial",
    "C49_flat_errors_refuted",
    "C49_empty_items_refuted"
   ],
   "note": "Records, enums and options in full; collections if no item type is without size (refuted otherwise: the generated code divides by zero). Refuted for flat errors in buffers, whose layout has no room for the message."
  },
  {
   "property": "C50",
   "status": "partial",
   "theorems": [
    "C50_arrives_partial",
    "C50_nan_refuted",
    "C50_handle_refuted",
    "C50_nested_option_refuted",
    "C50_instant_refuted",
    "C50_duration_refuted",
    "C50_long_list_refuted",
    "C50_long_array_refuted"
   ],
   "note": "For all values except those refuted or unsupported: NaN with all bits set in an option, handles with the top bit set in an option, nested options, instants in the second before the epoch, durations of 2^63 seconds or more, collections whose buffer exceeds 2^31-1 bytes, flat errors in buffers."
  },
  {
   "property": "C51",
   "status": "proved",
   "theorems": [
    "C51_slots",
    "C51_generated"
   ],
   "note": "Proved for all enums that are not flat errors, which have one fixed pair of FFI values."
  },
  {
   "property": "C52",
   "status": "partial",
   "theorems": [
    "C52_ordered_partial",
    "C52_any_order_partial",
    "C52_bytes_refuted",
    "C52_recursion_refuted",
    "C52_object_refuted",
    "C52_crates_refuted",
    "C52_empty_field_refuted",
    "C52_empty_option_refuted"
   ],
   "note": "Proved if no definition contains something that needs it back, everything put into buffers has a layout, and types are not of astronomical size. Refuted for bytes, durations, timestamps and callback interfaces in compound types (universally), recursion through collections or objects, records of other crates, records without fields."
  },
  {
   "property": "C53",
   "status": "partial",
   "theorems": [
    "C53_python_partial",
    "C53_kotlin_partial",
    "C53_kotlin_jni_partial",
    "C53_swift_partial",
    "C53_ruby_partial",
    "C53_python_calls_partial",
    "C53_python_order",
    "C53_python_order_refuted",
    "C53_udl",
    "C53_udl_accepts",
    "C53_macro_integers",
    "C53_backslash_refuted",
    "C53_quote_refuted",
    "C53_dollar_refuted",
    "C53_hash_refuted",
    "C53_kotlin_min_refuted",
    "C53_jni_small_refuted",
    "C53_jni_exponent_refuted",
    "C53_jni_set_refuted",
    "C53_float_form_refuted",
    "C53_set_refuted",
    "C53_python_enum_refuted",
    "C53_udl_range_refuted",
    "C53_udl_prefix_refuted",
    "C53_udl_custom_refuted",
    "C53_u64_refuted"
   ],
   "note": "For plain strings and numbers, every generator writes an expression its language reads as the value meant; UDL and the macros keep values; Python makes changeable defaults anew. Strings with quotes, backslashes or interpolation, some numbers, sets as lists, enum class names, out-of-range UDL integers, negative u64 and the order of Python parameters are refuted. Rounding of fractions is left out."
  },
  {
   "property": "C54",
   "status": "partial",
   "theorems": [
    "C54_kotlin_comment",
    "C54_swift_comment",
    "C54_python_string",
    "C54_kotlin_text",
    "C54_swift_text",
    "C54_python_text_partial",
    "C54_udl_lines",
    "C54_udl_to_kotlin",
    "C54_udl_to_python_partial",
    "C54_rust_lines_partial",
    "C54_python_error_refuted",
    "C54_python_backslash_refuted",
    "C54_rust_indentation_refuted"
   ],
   "note": "For every text the comment or string ends where it should (Kotlin, Swift, Python). The text is kept line by line in Kotlin and Swift, in Python if it has no backslash, from Rust if the lines have no outer white space; the rest is refuted: Python reads backslashes as escapes (even as syntax errors), the macros trim every line."
  },
  {
   "property": "C55",
   "status": "partial",
   "theorems": [
    "C55_function_partial",
    "C55_hidden_bytes",
    "C55_hidden_bytes_refuted",
    "C55_future",
    "C55_trait_partial",
    "C55_python_table",
    "C55_excluded",
    "C55_excluded_refuted",
    "C55_udl_partial",
    "C55_udl_trait",
    "C55_udl_callback_partial",
    "C55_udl_callback_python",
    "C55_udl_callback_async",
    "C55_udl_callback_async_refuted",
    "C55_udl_callback_bytes_refuted",
    "C55_builtins_partial",
    "C55_fixed",
    "C55_ruby_bytes_refuted"
   ],
   "note": "Holds for every signature outside the listed cases; false for references to bytes not spelled &[u8], excluded methods of foreign-implementable traits (not in Python), async or byte-borrowing UDL callback interface methods, and Ruby's borrowed bytes; witnesses given."
  },
  {
   "property": "C56",
   "status": "partial",
   "theorems": [
    "C56_lookups_end",
    "C56_found_is_meant_partial",
    "C56_meant_is_found_partial",
    "C56_twice_declared_not_found",
    "C56_one_meaning",
    "C56_independent_of_history_refuted",
    "C56_not_missing_refuted",
    "C56_not_missing_without_globs_refuted",
    "C56_self_path_refuted",
    "C56_visible_refuted",
    "C56_macro_refuted",
    "C56_no_panic_refuted"
   ],
   "note": "Termination, soundness and completeness for well-founded meanings are proved for every history; visibility is left out of the specification (privacy is refuted separately), and for circular globs, re-exported crates, self paths, macros and paths into known items the full statement is refuted."
  },
  {
   "property": "C57",
   "status": "partial",
   "theorems": [
    "C57_predicate_partial",
    "C57_attributes_partial",
    "C57_same_bindings_partial",
    "C57_same_names_partial",
    "C57_compiled_sources_are_settled",
    "C57_every_predicate_refuted",
    "C57_never_too_much_refuted",
    "C57_constant_refuted",
    "C57_no_error_refuted",
    "C57_nested_refuted",
    "C57_arguments_refuted",
    "C57_macros_refuted",
    "C57_file_heads_refuted",
    "C57_callback_error_refuted",
    "C57_module_docs_refuted",
    "C57_uses_refuted",
    "C57_aliases_refuted",
    "C57_absent_types_refuted"
   ],
   "note": "Proved for predicates of the seven options the front end knows (others when unset) standing where it looks, against the whole pass of the compiler; everything outside these conditions is refuted by a witness of its own."
  },
  {
   "property": "C58",
   "status": "partial",
   "theorems": [
    "C58_brings_partial",
    "C58_shape",
    "C58_rename_self_refuted",
    "C58_refused_refuted",
    "C58_renamed_module_found_refuted"
   ],
   "note": "Proved for all trees without `self as`, for which the statement is refuted."
  },
  {
   "property": "C59",
   "status": "partial",
   "theorems": [
    "C59_ends",
    "C59_offered",
    "C59_found_partial",
    "C59_cached_partial",
    "C59_cached_refuted",
    "C59_visible_refuted",
    "C59_refers_refuted",
    "C59_functions_refuted",
    "C59_modules_refuted",
    "C59_enum_globs_refuted"
   ],
   "note": "Soundness and termination in full; completeness for types with settled public uses; six parts refuted."
  },
  {
   "property": "C60",
   "status": "partial",
   "theorems": [
    "C60_type_partial",
    "C60_argument_partial",
    "C60_result_partial",
    "C60_receiver_partial",
    "C60_found_partial",
    "C60_exact_partial",
    "C60_nested_parameters_refuted",
    "C60_lifetimes_refuted",
    "C60_traits_of_crates_refuted",
    "C60_renamed_traits_refuted",
    "C60_custom_types_refuted",
    "C60_ends_refuted"
   ],
   "note": "Soundness for direct parameters, completeness and exactness with settled uses and without lifetimes; six parts refuted."
  },
  {
   "property": "C61",
   "status": "partial",
   "theorems": [
    "C61_sound_partial",
    "C61_complete_partial",
    "C61_covered_partial",
    "C61_namespace",
    "C61_accepted_partial",
    "C61_order_partial",
    "C61_panics_partial",
    "C61_enum_traits_refuted",
    "C61_two_throws_refuted",
    "C61_builtin_names_refuted",
    "C61_static_variants_refuted",
    "C61_customs_first_refuted",
    "C61_undefined_error_refuted",
    "C61_defined_twice_refuted",
    "C61_advised_words_refuted"
   ],
   "note": "Soundness, completeness, coverage, acceptance and independence of order for plainly written files; no panics when constructors throw defined errors; the namespace in full; eight parts refuted."
  },
  {
   "property": "C62",
   "status": "partial",
   "theorems": [
    "C62_interface_partial",
    "C62_pipeline_partial",
    "C62_types_partial",
    "C62_determined",
    "C62_agree_partial",
    "C62_accepted_partial",
    "C62_objects_refuted",
    "C62_orphans_refuted",
    "C62_kinds_refuted",
    "C62_functions_refuted",
    "C62_dashes_refuted",
    "C62_constructors_refuted",
    "C62_function_names_refuted",
    "C62_crates_refuted",
    "C62_namespaces_refuted",
    "C62_members_refuted",
    "C62_mixed_refuted"
   ],
   "note": "Each builder is true to the items, types are translated, both agree, and the pipeline accepts what the component interface does, under stated conditions on names; ten parts refuted without them."
  },
  {
   "property": "C63",
   "status": "partial",
   "theorems": [
    "C63_shown_partial",
    "C63_python_shown",
    "C63_agree_partial",
    "C63_calls",
    "C63_python_calls",
    "C63_needs_partial",
    "C63_python_links",
    "C63_tables_partial",
    "C63_python_tables",
    "C63_defined_partial",
    "C63_python_defined_partial",
    "C63_custom_refuted",
    "C63_renamed_refuted",
    "C63_renamed_tables_refuted",
    "C63_slots_refuted",
    "C63_python_needs_refuted",
    "C63_used_refuted",
    "C63_python_used_refuted",
    "C63_nested_refuted",
    "C63_python_nested_refuted"
   ],
   "note": "What is shown, called, declared and linked is as said for all items and configurations, with stated conditions; nine parts refuted without them."
  },
  {
   "property": "C64",
   "status": "partial",
   "theorems": [
    "C64_rust_to_swift_partial",
    "C64_swift_to_rust_partial",
    "C64_round_trip_partial",
    "C64_left_over",
    "C64_flat_error_tag",
    "C64_fraction_refuted",
    "C64_long_duration_refuted",
    "C64_equivalent_keys_refuted",
    "C64_close_keys_refuted",
    "C64_before_1970_refuted",
    "C64_negative_length_refuted",
    "C64_lax_bool_refuted"
   ],
   "note": "Both directions and the round trip are proved with stated conditions; seven refutations without them."
  },
  {
   "property": "C65",
   "status": "partial",
   "theorems": [
    "C65_never_twice",
    "C65_nothing_left_partial",
    "C65_unsendable_argument",
    "C65_refused_argument",
    "C65_unsendable_result",
    "C65_refused_result",
    "C65_error_object",
    "C65_interrupted",
    "C65_callback_refused_argument",
    "C65_callback_dropped_before_start",
    "C65_callback_dropped_while_running",
    "C65_callback_answer_dropped",
    "C65_callback_never_answered",
    "C65_object_errors_refuted",
    "C65_refused_results_refuted",
    "C65_unsendable_arguments_refuted",
    "C65_refused_arguments_refuted",
    "C65_cancelled_refuted",
    "C65_dropped_callbacks_refuted"
   ],
   "note": "That nothing is left is proved for calls whose values can be converted; otherwise the exact leftover is proved and six refutations show that it is without bound."
  },
  {
   "property": "C66",
   "status": "partial",
   "theorems": [
    "C66_recognisable",
    "C66_collide",
    "C66_spelled",
    "C66_types_kept",
    "C66_functions_kept",
    "C66_accepted_partial",
    "C66_digits_refuted",
    "C66_ruby_in_refuted",
    "C66_ruby_begin_refuted",
    "C66_swift_any_refuted",
    "C66_borrowed",
    "C66_borrowed_refuted",
    "C66_distinct_partial",
    "C66_distinct_refuted",
    "C66_errors_refuted",
    "C66_types_and_functions",
    "C66_python_own",
    "C66_python_prefixes",
    "C66_python_modules_refuted",
    "C66_python_parameters_partial",
    "C66_python_parameters_refuted",
    "C66_python_enum_partial",
    "C66_python_enum_refuted",
    "C66_kotlin_functions_partial",
    "C66_kotlin_error_fields_partial",
    "C66_kotlin_members_refuted",
    "C66_ruby_methods_partial",
    "C66_ruby_methods_refuted",
    "C66_companions_partial",
    "C66_companions_refuted",
    "C66_jni_used_partial",
    "C66_python_default_partial",
    "C66_used_refuted"
   ],
   "note": "Proved up to the names listed in the refutations; names are ASCII."
  },
  {
   "property": "C67",
   "status": "partial",
   "theorems": [
    "C67_equality_partial",
    "C67_inequality_partial",
    "C67_other_type_partial",
    "C67_equivalence_partial",
    "C67_by_fields_partial",
    "C67_hash_partial",
    "C67_ruby_keys_partial",
    "C67_hashable_partial",
    "C67_order_partial",
    "C67_one_of_three_partial",
    "C67_text_partial",
    "C67_accepted",
    "C67_refused_refuted",
    "C67_eq_without_hash_refuted",
    "C67_jni_hash_refuted",
    "C67_ignored_refuted",
    "C67_order_ignored_refuted",
    "C67_empty_record_refuted",
    "C67_display_ignored_refuted",
    "C67_records_refuted",
    "C67_across_types_refuted"
   ],
   "note": "Proved for the types whose traits the templates use; the others are refuted."
  },
  {
   "property": "C68",
   "status": "partial",
   "theorems": [
    "C68_merged",
    "C68_mergeable",
    "C68_strongest",
    "C68_fails",
    "C68_sections",
    "C68_roots",
    "C68_paths",
    "C68_other_sections",
    "C68_listed_partial",
    "C68_unlisted",
    "C68_own_directory_partial",
    "C68_jni_roots_refuted",
    "C68_dropped_refuted",
    "C68_hyphens_refuted",
    "C68_own_directory_refuted",
    "C68_order_refuted",
    "C68_numbers_refuted"
   ],
   "note": "Merging, precedence and failures are proved in full; where crates are found is proved for the commands and builds that respect the listed roots and names, and refuted otherwise."
  },
  {
   "property": "C69",
   "status": "partial",
   "theorems": [
    "C69_ends",
    "C69_crates",
    "C69_once_partial",
    "C69_linked_parsed",
    "C69_parsed_linked_partial",
    "C69_features",
    "C69_sound_partial",
    "C69_agree_partial",
    "C69_chain_refuted",
    "C69_forward_refuted",
    "C69_tests_refuted",
    "C69_tests_features_refuted",
    "C69_spelling_refuted",
    "C69_library_name_partial",
    "C69_library_name_refuted",
    "C69_unknown_refuted",
    "C69_versions_refuted"
   ],
   "note": "Termination and the exact result are proved in full; agreement with cargo is proved for ordinary dependencies and flat features, and refuted otherwise."
  },
  {
   "property": "C70",
   "status": "partial",
   "theorems": [
    "C70_names",
    "C70_all_partial",
    "C70_once_partial",
    "C70_elf_only",
    "C70_pe_only",
    "C70_coff_only",
    "C70_elf_lost",
    "C70_pe_lost",
    "C70_coff_lost",
    "C70_member_lost",
    "C70_known",
    "C70_stripped_refuted",
    "C70_order_refuted",
    "C70_mach_only_refuted",
    "C70_members_refuted",
    "C70_twice_refuted",
    "C70_namesake_refuted",
    "C70_reference_refuted",
    "C70_damaged_refuted",
    "C70_fat_refuted",
    "C70_unrelated_refuted"
   ],
   "note": "Proved for files of one architecture as linkers write them, with Mach-O sections in address order; that nothing is passed over when reading succeeds is proved for all ELF, PE and COFF files and archives; refuted otherwise."
  },
  {
   "property": "C71",
   "status": "partial",
   "theorems": [
    "C71_alike_partial",
    "C71_accepted_partial",
    "C71_defaults",
    "C71_docs",
    "C71_values_refuted",
    "C71_error_repr_refuted",
    "C71_by_arc_refuted",
    "C71_remote_refuted",
    "C71_trait_impl_refuted",
    "C71_renamed_impl_refuted",
    "C71_renamed_debug_refuted",
    "C71_raw_name_refuted",
    "C71_unnamed_field_refuted",
    "C71_use_as_refuted",
    "C71_two_attributes_refuted",
    "C71_library_only_refuted",
    "C71_sources_only_refuted",
    "C71_unreadable_refuted"
   ],
   "note": "Proved for items both accept that are plain (Src_Spec.v) and recordable, and that the source reader accepts every tidy item (Src_Spec.v) the macros accept; refuted for each feature left out and for which items are accepted."
  },
  {
   "property": "C72",
   "status": "partial",
   "theorems": [
    "C72_files",
    "C72_exports_partial",
    "C72_accepted",
    "C72_display_refuted",
    "C72_unwanted_refuted",
    "C72_error_traits_refuted",
    "C72_trait_traits_refuted",
    "C72_again_partial",
    "C72_async_callback_refuted",
    "C72_mutable_refuted",
    "C72_links_partial",
    "C72_links_refuted",
    "C72_python_links_partial",
    "C72_python_links_refuted",
    "C72_tables",
    "C72_tables_fit_partial",
    "C72_python_tables_fit_partial",
    "C72_errors_read",
    "C72_error_argument_refuted"
   ],
   "note": "Exports and descriptions are proved for all UDL files whose built-in traits are on no error and no trait and where enums have Debug and Display together; refuted for the others, and for asynchronous callback methods and mutable borrows. Errors that foreign code may throw can be read; errors as arguments cannot (refuted). Python's tables are compared for callback interfaces only."
  },
  {
   "property": "C73",
   "status": "partial",
   "theorems": [
    "C73_calls_partial",
    "C73_rust_partial",
    "C73_value_partial",
    "C73_void_partial",
    "C73_error_partial",
    "C73_declared_partial",
    "C73_panic_partial",
    "C73_argument_partial",
    "C73_callback_value",
    "C73_callback_error",
    "C73_callback_other",
    "C73_message_refuted",
    "C73_message_crash_refuted",
    "C73_lookup_refuted",
    "C73_memory_refuted",
    "C73_class_refuted",
    "C73_reference_refuted",
    "C73_frame_refuted",
    "C73_throw_refuted",
    "C73_objects_refuted",
    "C73_attached_refuted",
    "C73_frames_refuted",
    "C73_conversion_refuted",
    "C73_unwinds_refuted",
    "C73_kinds_partial",
    "C73_async_kinds_partial",
    "C73_bool_refuted",
    "C73_async_refuted"
   ],
   "note": "Proved for all programs while the VM does what it is asked for and no conversion panics on the way to or from a method implemented in Kotlin; refuted for failures of the VM, such panics, objects behind a bad argument, attachment, and boolean or asynchronous callback results."
  },
  {
   "property": "C74",
   "status": "partial",
   "theorems": [
    "C74_alive",
    "C74_gone",
    "C74_freed_once",
    "C74_resumed_once",
    "C74_not_replaced",
    "C74_not_polled_again",
    "C74_result_partial",
    "C74_null_refuted",
    "C74_no_deadlock_partial",
    "C74_polled_again_partial",
    "C74_not_in_vain",
    "C74_steps_end",
    "C74_inline_refuted",
    "C74_cancel_refuted",
    "C74_answer",
    "C74_sender_once_partial",
    "C74_sender_twice_refuted",
    "C74_sender_leak_refuted",
    "C74_message_refuted"
   ],
   "note": "Proved for every interleaving: memory, single resumption, result other than null, no poll without a wake; progress when coroutines are dispatched. Refuted: deadlock when the coroutine is resumed inside the waking thread, null results, cancellation, double use and leak of the sender when an exception is pending or the JNI method throws, message of exceptions."
  },
  {
   "property": "C75",
   "status": "partial",
   "theorems": [
    "C75_reads_partial",
    "C75_trailing_commas_partial",
    "C75_shapes",
    "C75_one_meaning",
    "C75_no_panic_partial",
    "C75_last_comment_refuted",
    "C75_first_comment_refuted",
    "C75_comment_between_docs_refuted",
    "C75_docs_anywhere_refuted",
    "C75_names_kept_refuted",
    "C75_numbers_refuted",
    "C75_strings_refuted",
    "C75_line_ends_refuted"
   ],
   "note": "Proved for the forms that UniFFI accepts: every spelling is read as what was written (also with a comma after the last variant), no text has two meanings, no panic, and whatever is read has the shapes of the grammar. Refuted: comments on the last line, before the first documentation and between its lines; documentation elsewhere; leading underscores, numbers without digits, quotes in strings, line ends of Windows in documentation."
  },
  {
   "property": "C76",
   "status": "partial",
   "theorems": [
    "C76_items_partial",
    "C76_accepted_partial",
    "C76_spelling_is_free",
    "C76_order_is_free_partial",
    "C76_as_written_partial",
    "C76_one_file",
    "C76_no_panic_partial",
    "C76_text_panics_refuted"
   ],
   "note": "Proved for files without the oddities refuted in C61 and for the forms of C75: a text is read as the file it writes down, its metadata is all and only what the file says, legal files are accepted, layout and order of definitions make no difference, no text writes two files down, no panics unless a constructor throws an undefined error (refuted with a text)."
  }
 ]
}
