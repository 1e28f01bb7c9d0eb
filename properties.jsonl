{"id": "C01", "title": "Wire round trip", "statement": "A value of any exported type that Rust serializes into an FFI buffer is read back from that buffer as an equal value, and reading consumes exactly the bytes that were written, whatever bytes follow them.", "quantifier": "every type (numbers, bool, string, bytes, option, sequence, map, set, duration, timestamp, box, record, enum, object handle, custom), every value of that type that the writer accepts, every byte string following it", "why_tests_cant": "the set of types is closed under nesting and recursion and the values are unbounded, so samples cannot cover it", "anchors": ["uniffi_core/src/ffi_converter_impls.rs: write/try_read of every FfiConverter", "uniffi_macros/src/enum_.rs: enum_or_error_ffi_converter_impl", "uniffi_macros/src/record.rs: derive_ffi_for_record"]}
{"id": "C02", "title": "Deserializing hostile bytes never panics", "statement": "Reading a value of a given type from an arbitrary byte string either yields a value or a conversion error; it does not panic.", "quantifier": "every type, every byte string", "why_tests_cant": "the adversarial inputs are all byte strings; a fuzzer only samples them", "anchors": ["uniffi_core/src/ffi_converter_impls.rs: try_read", "uniffi_core/src/lib.rs: check_remaining", "uniffi_macros/src/error.rs: flat error try_read"]}
{"id": "C03", "title": "Truncated data is rejected", "statement": "Cutting any non-empty suffix off the serialized form of a value makes deserialization fail; a shorter buffer is never accepted as some other value.", "quantifier": "every type, value and strict prefix of its serialization", "why_tests_cant": "needs every value and every cut point", "anchors": ["uniffi_core/src/ffi_converter_impls.rs: try_read", "uniffi_core/src/lib.rs: check_remaining"]}
{"id": "C04", "title": "Junk after a value is rejected", "statement": "Lifting a value from a buffer succeeds exactly when the buffer holds one value and nothing else; extra trailing bytes give an error.", "quantifier": "every type, value and non-empty trailing byte string", "why_tests_cant": "needs every combination of value and trailer", "anchors": ["uniffi_core/src/ffi_converter_traits.rs: try_lift_from_rust_buffer"]}
{"id": "C05", "title": "Serialization is unambiguous", "statement": "Two different values of one type never have the same serialized form, and concatenating the serialized forms of a sequence of values determines the values.", "quantifier": "every type and every pair (list) of values", "why_tests_cant": "a collision could involve any pair of values", "anchors": ["uniffi_core/src/ffi_converter_impls.rs: write"]}
{"id": "C06", "title": "Timestamps keep their instant", "statement": "A point in time sent through a buffer arrives as the same point in time, before or after 1970, down to the nanosecond.", "quantifier": "every representable SystemTime", "why_tests_cant": "the failing region is a one-second window that example dates miss", "anchors": ["uniffi_core/src/ffi_converter_impls.rs: FfiConverter for SystemTime"]}
{"id": "C07", "title": "Lengths are never silently truncated", "statement": "When a string, sequence, map or set is too long for its 32-bit length prefix the writer stops with a panic; it never writes a length that differs from the number of items, and a negative length is rejected by the reader.", "quantifier": "every length", "why_tests_cant": "the boundary is 2^31 elements, too large to allocate in a test", "anchors": ["uniffi_core/src/ffi_converter_impls.rs: String/Vec/HashMap/HashSet write and try_read"]}
{"id": "C08", "title": "Enum variants are tagged by position and unknown tags are rejected", "statement": "The reader accepts exactly the variant numbers 1..n of the declared enum, each mapped to the variant declared at that position; every other 32-bit number gives an error. What Rust lowers for an error type can be lifted again.", "quantifier": "every enum definition, every 32-bit tag", "why_tests_cant": "all 2^32 tags and all definitions", "anchors": ["uniffi_macros/src/enum_.rs: enum_or_error_ffi_converter_impl", "uniffi_macros/src/error.rs: flat_error_ffi_converter_impl"]}
{"id": "C09", "title": "Maps and sets are order-insensitive and last entry wins", "statement": "Reading the serialization of a map or set gives the same collection for every iteration order the writer used; if the incoming bytes repeat a key, the last value read for it is kept and the result has no duplicate keys.", "quantifier": "every map/set, every permutation of its entries, every byte string with repeated keys", "why_tests_cant": "hash iteration order is random per process, a test sees one order", "anchors": ["uniffi_core/src/ffi_converter_impls.rs: FfiConverter for HashMap, HashSet"]}
{"id": "C10", "title": "Python and Rust agree on every buffer", "statement": "A value written by the generated Python code is read by Rust as the corresponding value, and the other way round, for every type that crosses in a buffer.", "quantifier": "every type and every Python/Rust value of it", "why_tests_cant": "all nestings of types; a mismatch could hide in any combination", "anchors": ["uniffi_bindgen/src/bindings/python/templates/RustBufferTemplate.py", "uniffi_bindgen/src/bindings/python/templates/OptionalTemplate.py", "uniffi_bindgen/src/bindings/python/templates/builtins", "uniffi_core/src/ffi_converter_impls.rs"]}
{"id": "C11", "title": "Foreign timestamps and durations agree with Rust", "statement": "For Kotlin, Python and Ruby, an instant or duration lowered by the foreign side is lifted by Rust as the same instant or duration, and conversely (up to the documented precision of the foreign type).", "quantifier": "every representable instant/duration", "why_tests_cant": "sign and carry edge cases are isolated points in a 2^94-size space", "anchors": ["uniffi_bindgen/src/bindings/kotlin/templates/TimestampHelper.kt", "uniffi_bindgen/src/bindings/kotlin/templates/DurationHelper.kt", "uniffi_bindgen/src/bindings/python/templates/builtins/Timestamp.py", "uniffi_bindgen/src/bindings/ruby/templates/RustBufferBuilder.rb", "uniffi_bindgen/src/bindings/ruby/templates/RustBufferStream.rb"]}
{"id": "C12", "title": "Kotlin never overruns the buffer it allocates", "statement": "The size Kotlin computes before writing a value is at least the number of bytes it then writes, and the bytes written are exactly those Rust would write for the value.", "quantifier": "every type and value, every Unicode string", "why_tests_cant": "the bound must hold for all strings and all nestings", "anchors": ["uniffi_bindgen/src/bindings/kotlin/templates/FfiConverterTemplate.kt: allocationSize, lowerIntoRustBuffer", "uniffi_bindgen/src/bindings/kotlin/templates/StringHelper.kt"]}
{"id": "C13", "title": "Buffers are owned once", "statement": "Over any history of allocating, growing, copying into, lifting and freeing buffers through the FFI, the bytes written are preserved, length never exceeds capacity, each allocation is freed exactly once by whoever consumes it, and malformed buffer headers are refused with an unexpected-error status rather than used.", "quantifier": "every finite history of buffer operations", "why_tests_cant": "ownership bugs show up only on particular histories", "anchors": ["uniffi_core/src/ffi/rustbuffer.rs"]}
{"id": "C14", "title": "Every FFI call reports exactly one outcome", "statement": "A scaffolding call never unwinds across the FFI: it returns with status success and the function's value, or error with the lowered error, or unexpected-error with the panic message, and the return slot holds a harmless default in the failing cases.", "quantifier": "every user function outcome (value, error, panic), every prior content of the status", "why_tests_cant": "all outcomes of arbitrary user code", "anchors": ["uniffi_core/src/ffi/rustcalls.rs: rust_call, rust_call_with_out_status", "uniffi_core/src/ffi_converter_impls.rs: LowerReturn for Result"]}
{"id": "C15", "title": "Arguments are lifted in order and the function runs only if all lift", "statement": "The exported function is called exactly once with the lifted arguments when every argument lifts; otherwise it is not called and the outcome names the first argument that failed, as the declared error if the failure is of that type and as an unexpected error otherwise.", "quantifier": "every argument list and every pattern of lift failures", "why_tests_cant": "all arities and failure patterns", "anchors": ["uniffi_macros/src/export/scaffolding.rs: gen_ffi_function, ScaffoldingBits", "uniffi_core/src/ffi_converter_traits.rs: handle_failed_lift"]}
{"id": "C16", "title": "Borrowed byte slices are faithful", "statement": "A borrowed foreign byte slice is seen in Rust as exactly the foreign bytes, mutations through a mutable slice land in the foreign memory and nowhere else, and malformed descriptors (negative length, null with a length) are refused.", "quantifier": "every memory, address and length", "why_tests_cant": "all memories and descriptors", "anchors": ["uniffi_core/src/ffi/foreignbytes.rs"]}
{"id": "C17", "title": "Handles tell Rust objects from foreign objects", "statement": "A trait-object handle made by Rust is never mistaken for one made by the foreign side and vice versa, so lifting a handle always reaches the implementation that was lowered; zero is never a valid handle.", "quantifier": "every Rust allocation address (aligned), every foreign handle-map history", "why_tests_cant": "depends on all addresses and on the whole history of the handle map", "anchors": ["uniffi_core/src/ffi/handle.rs", "uniffi_macros/src/export/trait_interface.rs", "uniffi_bindgen/src/bindings/kotlin/templates/HandleMap.kt", "uniffi_bindgen/src/bindings/python/templates/HandleMap.py", "uniffi_bindgen/src/bindings/swift/templates/HandleMap.swift"]}
{"id": "C18", "title": "Foreign handle maps behave like a map of live tokens", "statement": "Each inserted or cloned object gets a fresh odd handle; get and clone find exactly the object stored under a live handle; remove succeeds once per handle and afterwards the handle is invalid forever; the size is the number of live handles.", "quantifier": "every interleaving of insert/get/clone/remove from any number of threads", "why_tests_cant": "all interleavings and histories", "anchors": ["uniffi_bindgen/src/bindings/python/templates/HandleMap.py", "uniffi_bindgen/src/bindings/kotlin/templates/HandleMap.kt", "uniffi_bindgen/src/bindings/swift/templates/HandleMap.swift", "uniffi_bindgen/src/bindings/ruby/templates/HandleMap.rb"]}
{"id": "C19", "title": "Rust objects live exactly as long as they are referenced", "statement": "Under the generated calling convention (clone before each call, free once per foreign wrapper), a Rust object is never used after it is dropped, is dropped exactly once, and is dropped as soon as the last foreign and Rust reference is gone.", "quantifier": "every history of constructing, cloning, calling, returning, storing and freeing objects", "why_tests_cant": "lifetimes depend on the whole history", "anchors": ["uniffi_core/src/ffi/handle.rs", "uniffi_macros/src/object.rs", "uniffi_macros/src/export/trait_interface.rs"]}
{"id": "C20", "title": "Kotlin objects may be destroyed concurrently with calls", "statement": "With any number of threads calling methods on, passing as an argument, and destroying one Kotlin object, Rust's destructor runs at most once, never while a call is using the object, and no call reaches Rust after it ran.", "quantifier": "every interleaving of any number of threads at the granularity of atomic operations", "why_tests_cant": "a race appears only in particular interleavings", "anchors": ["uniffi_bindgen/src/bindings/kotlin/templates/ObjectTemplate.kt: callWithHandle, destroy, uniffiCloneHandle, FfiConverter.lower"]}
{"id": "C21", "title": "Each async continuation is called exactly once", "statement": "Each callback handed to the poll function of a Rust future is invoked at most once, and is invoked once the future is woken, becomes ready, is cancelled or is freed; none is lost or called twice, whatever the interleaving.", "quantifier": "every interleaving of poll, wake, cancel and free from any number of threads, every behaviour of the future", "why_tests_cant": "interleavings at lock granularity", "anchors": ["uniffi_core/src/ffi/rustfuture/scheduler.rs", "uniffi_core/src/ffi/rustfuture/future.rs"]}
{"id": "C22", "title": "No wakeup is lost", "statement": "If the future's waker is called after a poll of the future started, then the continuation of that poll (or, if it already fired, of the next one) fires with a wake or ready code without a further wake being needed. When the foreign side polls one continuation at a time, it is told to poll again no more often than the future was woken, so that waiting costs nothing.", "quantifier": "every interleaving of wakes with polls", "why_tests_cant": "a lost wakeup is a single interleaving", "anchors": ["uniffi_core/src/ffi/rustfuture/scheduler.rs: store, wake", "uniffi_core/src/ffi/rustfuture/future.rs: poll"]}
{"id": "C23", "title": "Cancellation is permanent and prompt", "statement": "After a future is cancelled or freed, a pending continuation is called with the ready code, every later poll calls back ready without polling the user's future again, and completing an unfinished future reports the cancelled status.", "quantifier": "every interleaving and history containing a cancel or free", "why_tests_cant": "all histories", "anchors": ["uniffi_core/src/ffi/rustfuture/scheduler.rs: cancel", "uniffi_core/src/ffi/rustfuture/future.rs"]}
{"id": "C24", "title": "Async results are delivered at most once and the future is polled correctly", "statement": "The user's future is never polled concurrently, never after it returned or panicked; its result or panic is delivered by the first complete call and by no other; after free both future and result are gone.", "quantifier": "every history of poll/complete/cancel/free and every behaviour of the user's future", "why_tests_cant": "all histories and behaviours", "anchors": ["uniffi_core/src/ffi/rustfuture/future.rs: WrappedFuture"]}
{"id": "C25", "title": "The foreign async call loop always terminates the future cleanly", "statement": "Running the generated foreign call loop against a Rust future, under any interleaving and any cancellation of the foreign task, calls free exactly once, completes at most once and only after ready, never uses the handle after free, and leaves no continuation in the continuation handle map.", "quantifier": "every interleaving of foreign task, executor wakes, and task cancellation", "why_tests_cant": "a composition of two concurrent state machines", "anchors": ["uniffi_bindgen/src/bindings/python/templates/Async.py", "uniffi_bindgen/src/bindings/kotlin/templates/Async.kt", "uniffi_bindgen/src/bindings/swift/templates/Async.swift", "uniffi_core/src/ffi/rustfuture/future.rs"]}
{"id": "C26", "title": "Foreign futures deliver their result once", "statement": "When Rust awaits a foreign async method, the result passed to the completion callback is received by the awaiting task exactly once regardless of whether it arrives before or after the task polls, no wake is lost, and dropping the Rust future early runs the foreign dropped-callback exactly once.", "quantifier": "every interleaving of send, poll and drop", "why_tests_cant": "interleavings at lock granularity", "anchors": ["uniffi_core/src/oneshot.rs", "uniffi_core/src/ffi/foreignfuture.rs"]}
{"id": "C27", "title": "Metadata round trip", "statement": "Every item the macros record about an exported API (function, method, constructor, record, enum, error, object, trait, callback interface, custom type, namespace ...) is read back from the library as exactly that item, provided its default values have the types of the arguments and fields they belong to.", "quantifier": "every metadata item that fits the format's size limits", "why_tests_cant": "items are recursive and unbounded", "anchors": ["uniffi_core/src/metadata.rs: MetadataBuffer", "uniffi_macros/src", "uniffi_meta/src/reader.rs: read_metadata"]}
{"id": "C28", "title": "Metadata is self-delimiting", "statement": "Reading a metadata item from a library yields the same item whatever bytes follow it in the file.", "quantifier": "every item, every trailing byte string", "why_tests_cant": "the file content after a symbol is arbitrary", "anchors": ["uniffi_meta/src/reader.rs", "uniffi_bindgen/src/macro_metadata/extract.rs"]}
{"id": "C29", "title": "Corrupt or truncated metadata is reported as an error", "statement": "Reading metadata from an arbitrary byte string yields an item or an error; it never panics.", "quantifier": "every byte string", "why_tests_cant": "all byte strings", "anchors": ["uniffi_meta/src/reader.rs: read_string, read_u8"]}
{"id": "C30", "title": "Oversized metadata fails to compile instead of being truncated", "statement": "Building a metadata buffer either contains all the bytes of all its parts in order or stops with a compile-time assertion; nothing is truncated, and a string of 256 bytes or more is never recorded with a wrapped length.", "quantifier": "every sequence of concatenations", "why_tests_cant": "all lengths up to and across the limits", "anchors": ["uniffi_core/src/metadata.rs: MetadataBuffer"]}
{"id": "C31", "title": "Checksums agree and ignore documentation", "statement": "The checksum the scaffolding computes at compile time for an API item equals the one the bindings compute from the metadata, and editing a docstring or a default value's documentation does not change it.", "quantifier": "every function/method/constructor item and every docstring", "why_tests_cant": "all items", "anchors": ["uniffi_core/src/metadata.rs: checksum_metadata", "uniffi_meta/src/metadata.rs: checksum_metadata", "uniffi_meta/src/reader.rs", "uniffi_macros/src/fnsig.rs: metadata_expr"]}
{"id": "C32", "title": "The checksum input distinguishes different APIs", "statement": "Two API items with different signatures (names, argument types, order, return type, throws, async) feed different byte streams to the checksum, so that a mismatch can only be missed by a hash collision.", "quantifier": "every pair of API items", "why_tests_cant": "all pairs", "anchors": ["uniffi_meta/src/lib.rs: Checksum", "uniffi_internal_macros/src/checksum.rs", "uniffi_core/src/metadata.rs"]}
{"id": "C33", "title": "FFI symbol names do not collide", "statement": "Distinct exported functions, methods and constructors of a component get distinct FFI symbol names, and the names computed by the scaffolding and by the bindings generator are equal.", "quantifier": "every pair of exported items with valid Rust identifiers", "why_tests_cant": "all identifier pairs", "anchors": ["uniffi_meta/src/ffi_names.rs"]}
{"id": "C34", "title": "Recursive types are detected exactly", "statement": "A record or enum is flagged recursive exactly when it contains itself through fields, options, sequences, maps, sets or boxes, independently of hash iteration order.", "quantifier": "every type graph and every iteration order", "why_tests_cant": "all graphs; the failure depends on random hash order", "anchors": ["uniffi_bindgen/src/pipeline/general/infer_recursive_enums.rs", "uniffi_bindgen/src/interface/mod.rs: is_recursive"]}
{"id": "C35", "title": "Definitions are emitted after what they depend on", "statement": "Sorting type definitions terminates, keeps every definition exactly once, and puts each definition after those it depends on whenever the dependencies are acyclic.", "quantifier": "every list of definitions and dependency relation", "why_tests_cant": "all graphs", "anchors": ["uniffi_bindgen/src/pipeline/general/sort.rs"]}
{"id": "C36", "title": "Enum discriminants match Rust's", "statement": "The discriminant value the bindings show for each variant is the one rustc assigns (explicit value, or previous plus one, or zero), and the chosen integer type can hold all of them.", "quantifier": "every list of explicit/implicit discriminants and every repr", "why_tests_cant": "edge values up to 2^64 and all mixtures", "anchors": ["uniffi_bindgen/src/pipeline/general/enums.rs", "uniffi_bindgen/src/interface/enum_.rs: variant_discr"]}
{"id": "C37", "title": "Different types get different converter names", "statement": "Two different types used in one component get different canonical names, so that one generated converter is never used for another type.", "quantifier": "every pair of types", "why_tests_cant": "all pairs of nested types", "anchors": ["uniffi_bindgen/src/pipeline/general/types.rs: canonical_name", "uniffi_bindgen/src/interface/mod.rs"]}
{"id": "C38", "title": "Every type an API mentions is known to the generator", "statement": "After adding an item to the component interface, every type nested anywhere in its signature is in the set of known types, and a name never denotes two different types.", "quantifier": "every sequence of added items", "why_tests_cant": "all nestings", "anchors": ["uniffi_bindgen/src/interface/universe.rs", "uniffi_meta/src/types.rs: iter_types"]}
{"id": "C39", "title": "Renaming is consistent", "statement": "Renaming a type in the configuration renames it everywhere it is mentioned, however deeply nested, and a rename keyed on an original name applies whatever else is renamed.", "quantifier": "every component interface and rename table", "why_tests_cant": "all nestings and tables", "anchors": ["uniffi_bindgen/src/interface/rename.rs", "uniffi_bindgen/src/interface/visit_mut.rs", "uniffi_bindgen/src/pipeline/general/rename.rs", "uniffi_meta/src/types.rs: rename_recursive"]}
{"id": "C40", "title": "Metadata items are grouped by crate without loss", "statement": "Each item read from a library ends in exactly one group, the group of its crate; items of unknown crates and duplicate items are errors; the grouping does not depend on the order items were found in.", "quantifier": "every list of items and every permutation of it", "why_tests_cant": "all orders", "anchors": ["uniffi_meta/src/group.rs"]}
{"id": "C41", "title": "Values packed in FFI buffer elements survive", "statement": "Arguments and results passed through the alternate buffer calling convention (one 64-bit slot per element) are received unchanged, and consecutive values never overlap.", "quantifier": "every list of FFI values", "why_tests_cant": "all sequences", "anchors": ["uniffi_core/src/ffi/ffiserialize.rs", "uniffi_core/src/ffi/ffibuffer.rs", "uniffi_macros/src/export/scaffolding.rs: gen_ffi_function (ffi-buffer)"]}
{"id": "C42", "title": "Callback interfaces call the right method and free the foreign object once", "statement": "Calling method i of a foreign-implemented trait invokes the foreign implementation of that method with its arguments, its error or exception comes back as the declared error or an unexpected error, and dropping the Rust side frees the foreign handle exactly once.", "quantifier": "every trait, method, foreign outcome and drop history", "why_tests_cant": "all traits and histories", "anchors": ["uniffi_macros/src/export/callback_interface.rs", "uniffi_core/src/ffi/callbackinterface.rs", "uniffi_core/src/ffi_converter_traits.rs: lift_foreign_return"]}
{"id": "C43", "title": "Object-containing types are recognised", "statement": "The generator's question 'does this type contain an object reference?', which decides whether destructors are generated, is answered yes exactly when an object is reachable through the type's definition, and always terminates.", "quantifier": "every component interface and type, including recursive ones", "why_tests_cant": "all type graphs", "anchors": ["uniffi_bindgen/src/interface/mod.rs: RecursiveTypeIterator, item_contains_object_references"]}
{"id": "C44", "title": "Bindings refuse a mismatched library", "statement": "Loading bindings against a library succeeds only if the contract version and the checksum of every API item are the ones the bindings were generated from.", "quantifier": "every library and bindings pair", "why_tests_cant": "all pairs", "anchors": ["uniffi_core/src/lib.rs: check_compatible_version", "uniffi_bindgen/src/interface/mod.rs: iter_checksums", "uniffi_bindgen/src/pipeline/general/checksums.rs"]}
{"id": "C45", "title": "Rust future memory is reclaimed exactly once and never early", "statement": "The memory of a Rust future handed to foreign code is released exactly once, after free was called and the last waker dropped, and never while a poll, wake or callback still uses it.", "quantifier": "every history of waker clones/drops and foreign calls", "why_tests_cant": "all histories", "anchors": ["uniffi_core/src/ffi/rustfuture/future.rs: wakers", "uniffi_core/src/ffi/rustfuture/mod.rs", "uniffi_core/src/ffi/handle.rs"]}
{"id": "C46", "title": "Foreign async methods always complete", "statement": "Whatever a foreign async method called by Rust does (return, throw a declared or another error, be cancelled), the generated foreign code calls the completion callback exactly once with the matching outcome, so that the awaiting Rust task neither hangs nor frees its channel twice.", "quantifier": "every outcome of the foreign method, with lowering succeeding or failing", "why_tests_cant": "all outcomes, including rare failures of lowering and cancellation", "anchors": ["uniffi_bindgen/src/bindings/python/templates/Async.py: _uniffi_trait_interface_call_async", "uniffi_bindgen/src/bindings/kotlin/templates/Async.kt: uniffiTraitInterfaceCallAsync", "uniffi_bindgen/src/bindings/swift/templates/Async.swift: uniffiTraitInterfaceCallAsync"]}
{"id": "C47", "title": "Uncollected async results are released", "statement": "A result that a foreign async method delivered but that Rust never collects, because its future was dropped, is released together with the buffers it owns.", "quantifier": "every interleaving of completion, polls and drop", "why_tests_cant": "all interleavings; leaks are silent", "anchors": ["uniffi_core/src/oneshot.rs", "uniffi_core/src/ffi/foreignfuture.rs", "uniffi_core/src/ffi/rustbuffer.rs"]}
{"id": "C48", "title": "Kotlin and Ruby agree with Rust on every buffer", "statement": "A value written by the generated Kotlin or Ruby code is read by Rust as the corresponding value, and the other way round, for every type that crosses in a buffer.", "quantifier": "every type and every Kotlin/Ruby/Rust value of it", "why_tests_cant": "all nestings of types, all Unicode strings (surrogate pairs), all float bit patterns; a mismatch could hide in any combination", "anchors": ["uniffi_bindgen/src/bindings/kotlin/templates", "uniffi_bindgen/src/bindings/ruby/templates/RustBufferStream.rb", "uniffi_bindgen/src/bindings/ruby/templates/RustBufferBuilder.rb", "uniffi_core/src/ffi_converter_impls.rs"]}
{"id": "C49", "title": "JNI buffers are laid out soundly", "statement": "In the JNI bindings for Kotlin, the generated Rust and Kotlin code agree on where each field of a record, each field of each enum variant, the content of an option and each item of a collection is in a buffer; these places are aligned, inside the buffer and do not overlap.", "quantifier": "every interface, every record, variant, option and collection in it, every number of items", "why_tests_cant": "all nestings of types and all sizes; an overlap corrupts memory silently", "anchors": ["uniffi-bindgen-kotlin-jni/src/pipeline/ffi_buffer.rs", "uniffi-bindgen-kotlin-jni/src/pipeline/records.rs", "uniffi-bindgen-kotlin-jni/src/pipeline/enums.rs", "uniffi-bindgen-kotlin-jni/src/pipeline/compounds.rs"]}
{"id": "C50", "title": "Values passed through JNI arrive unchanged", "statement": "In the JNI bindings for Kotlin, a value passed as an argument or return value, in either direction, arrives as the same value; all buffers, strings and boxes used on the way are freed exactly once, and no memory is read or written that may not be.", "quantifier": "every interface, every type and value of it, both directions, every state of the heap", "why_tests_cant": "all values of all types; leaks, out-of-bounds accesses and rare bit patterns go unnoticed", "anchors": ["uniffi-bindgen-kotlin-jni/src/scaffolding/templates", "uniffi-bindgen-kotlin-jni/src/bindings/templates", "uniffi-bindgen-kotlin-jni/runtime/src", "uniffi_core/src/ffi/ffibuffer.rs"]}
{"id": "C51", "title": "Enum variants fit into the FFI values of the enum", "statement": "In the JNI bindings for Kotlin, the fields of every variant find places of their types among the FFI values of the enum: no place is used twice, the discriminant is never overwritten, and the generator's internal error for this case cannot happen.", "quantifier": "every enum of every interface", "why_tests_cant": "all combinations of variants and field types", "anchors": ["uniffi-bindgen-kotlin-jni/src/pipeline/ffi_types.rs", "uniffi-bindgen-kotlin-jni/src/pipeline/enums.rs"]}
{"id": "C52", "title": "JNI bindings are generated for every interface", "statement": "The JNI bindings for Kotlin are generated, and compile, for every interface the macros accept, whatever the order of its definitions and crates.", "quantifier": "every interface and every order of its definitions", "why_tests_cant": "all interfaces and orders; a failure shows only for some names", "anchors": ["uniffi-bindgen-kotlin-jni/src/pipeline/context.rs", "uniffi-bindgen-kotlin-jni/src/pipeline/root.rs", "uniffi-bindgen-kotlin-jni/src/pipeline/ffi_buffer.rs", "uniffi-bindgen-kotlin-jni/src/scaffolding/templates"]}
{"id": "C53", "title": "Default values mean the same everywhere", "statement": "A default value given to an argument or field, in UDL or in a macro, is accepted exactly if the type has it; a caller in any language who leaves the argument out passes that very value; in Python a default that can be changed in place is made anew for each call.", "quantifier": "every type, every default value, every target language, every sequence of calls", "why_tests_cant": "all strings, numbers and types; generated source is read by another language's lexer, and failures depend on single characters", "anchors": ["uniffi_udl/src/literal.rs convert_default_value", "uniffi_meta/src/reader.rs read_literal", "uniffi_bindgen/src/bindings/python/pipeline/default.rs", "uniffi_bindgen/src/bindings/python/templates/CallableArgs.py", "uniffi_bindgen/src/bindings/kotlin/gen_kotlin/primitives.rs render_literal", "uniffi_bindgen/src/bindings/swift/gen_swift/primitives.rs render_literal", "uniffi_bindgen/src/bindings/ruby/gen_ruby/mod.rs literal_rb", "uniffi-bindgen-kotlin-jni/src/pipeline", "docs/manual/src/types/defaults.md"]}
{"id": "C54", "title": "Documentation reaches the bindings intact", "statement": "Whatever documentation a UDL file or Rust source contains, the comment (Kotlin, Swift) or string (Python) made of it ends exactly where the generator meant it to end, so the code after it is compiled as code; and what it says is the text written, line by line, with its relative indentation.", "quantifier": "every documentation text, every depth of indentation, every following source", "why_tests_cant": "all texts: comment markers, quotes and backslashes in any combination and position, at line ends and at the end of the text", "anchors": ["uniffi_bindgen/src/bindings/kotlin/gen_kotlin/mod.rs: docstring", "uniffi_bindgen/src/bindings/swift/gen_swift/mod.rs: docstring", "uniffi_bindgen/src/bindings/python/filters.rs: docstring", "weedle2/src/common.rs: docstring", "uniffi_udl/src/converters/mod.rs: convert_docstring", "uniffi_macros/src/util.rs: extract_docstring"]}
{"id": "C55", "title": "Foreign declarations of exported functions have the types Rust gave them", "statement": "For every function, method, constructor, callback table and helper a library exports, the C type (arguments in order, structures passed by value or by address, call status, result) that the generated Swift, Python, Kotlin and Ruby code declares for the symbol is the C type the Rust scaffolding gives it, up to the JVM's missing unsigned integers; and the future helpers chosen for an async function return the C type of its result.", "quantifier": "every exported Rust signature over the supported types, written in any way the compiler accepts; every UDL callable; every trait or callback interface with any list of methods and any exclusions; every built-in function", "why_tests_cant": "a wrong declaration is undefined behaviour only for the signatures it is wrong for; tests link a handful of signatures, and many mismatches happen to work on one calling convention", "anchors": ["uniffi_macros/src/fnsig.rs: NamedArg::new, scaffolding_param_types, is_u8_slice", "uniffi_macros/src/export/scaffolding.rs: gen_ffi_function", "uniffi_macros/src/export/callback_interface.rs", "uniffi_core/src/ffi_converter_impls.rs", "uniffi_bindgen/src/interface/ffi.rs: FfiType", "uniffi_bindgen/src/interface/callbacks.rs", "uniffi_bindgen/src/pipeline/general/ffi_functions.rs", "uniffi_bindgen/src/pipeline/general/callback_interfaces.rs", "uniffi_bindgen/src/scaffolding/templates/CallbackInterfaceTemplate.rs", "uniffi_bindgen/src/bindings/*/: ffi type names"]}
{"id": "C56", "title": "A path in the Rust sources means what Rust takes it to mean", "statement": "When bindings are generated from Rust sources, every path met there (in a type, a `use`, an attribute) is taken for the item Rust takes it for: a declaration of the module before a `use`, a `use` before a glob, `crate` and `super` from where the path is written, then other crates and the known names of the standard library; a name declared twice is never silently one of the two; looking names up always ends, also with globs that go in circles, never panics, and its answer does not depend on what was looked up before.", "quantifier": "every tree of modules with any declarations, renaming uses, globs (also circular), foreign-type references and UDL items, over any number of crates; every path and namespace; every sequence of lookups before it", "why_tests_cant": "the answers come from a memo table filled in the middle of other lookups with a cycle check; wrong entries need a particular order of lookups and a particular shape of globs, and the number of both is unbounded", "anchors": ["uniffi_parse_rs/src/paths.rs: RPath::resolve, resolve_global_path, child, _child, child_udl_item, child_special_item, child_item_or_non_glob_use, child_glob_use, Namespace::matches, LookupCache, get_builtin_item", "uniffi_parse_rs/src/modules.rs: lookup_udl_item", "uniffi_parse_rs/src/items.rs: Item::ident, is_special, is", "uniffi_parse_rs/src/ir.rs"]}
{"id": "C57", "title": "Conditional compilation in the Rust sources is the compiler's", "statement": "When bindings are generated from Rust sources for a target and a set of features, they contain exactly what the compiler compiles for them: an item, field, variant, method, argument, `use` or macro call whose `cfg` does not hold is not there, `cfg_attr` brings in its attributes (and the conditions among them) exactly when its predicate holds, predicates have the truth Rust gives them, and no predicate Rust accepts makes generation fail.", "quantifier": "every predicate nested to any depth, every list of attributes, every tree of modules and declarations with attributes anywhere Rust allows them, every target, set of features and set of compiler options that agrees with them", "why_tests_cant": "predicates and module trees are unbounded and each test fixes one target; a wrong answer shows only for a combination of option, place of the attribute and kind of item", "anchors": ["uniffi_parse_rs/src/compile_env.rs: CompileEnv::parse_attrs, check, should_parse_module", "uniffi_parse_rs/src/modules.rs: Module::add_items, parse_non_module_item", "uniffi_parse_rs/src/ir.rs: Ir::resolve_item", "uniffi_parse_rs/src/attrs", "uniffi_parse_rs/src/records.rs, enums.rs, impls.rs, traits.rs: parse"]}
{"id": "C58", "title": "A use declaration brings the names Rust says it brings", "statement": "When bindings are generated from Rust sources, every `use` declaration, however its groups are nested, brings exactly the names and globs Rust gives it, each once, with the declaration's visibility: `self` in a group is the module itself, under its own name or under the name after `as`; a `self` with nothing before it is refused.", "quantifier": "every tree of paths, names, renamings, stars and groups, nested to any depth, with or without leading colons", "why_tests_cant": "groups nest without bound and the path is carried through them; a leaf that gets the wrong prefix shows only for particular trees", "anchors": ["uniffi_parse_rs/src/use_.rs: parse_use, parse_use_recurse", "uniffi_parse_rs/src/modules.rs: parse_non_module_item"]}
{"id": "C59", "title": "The public path of an item is one from which other crates can import it", "statement": "For every exported item, the module and name that the source-reading front end reports for importing it are right: the module is reached from the crate's root through public modules only and offers the item under that name, being its own item, by a public `use` or through public globs; a module of least depth is reported; an item that no public module offers is reported as having no public path; the name for the bindings is the attribute's name or the item's own. Asking again, or for other items before, changes no answer.", "quantifier": "all trees of modules with uses and globs, also circular ones, all items, all earlier lookups and searches", "why_tests_cant": "the search follows globs through modules in circles and depends on what was searched before; a missed or wrong path shows only in particular module graphs", "anchors": ["uniffi_parse_rs/src/public_paths.rs: public_path_to_item, _public_path_to_item, search_module"]}
{"id": "C60", "title": "Types in signatures are resolved to what they denote in Rust", "statement": "For every type written in an exported signature, field or alias, the type that the source-reading front end records is the one the written type denotes in Rust: aliases stand for their types with arguments and defaults in place of parameters, names refer to what they refer to in their own module, the known types of the standard library are themselves, records, enums, objects, traits and custom types are called as other crates and the bindings call them; arguments are recorded with how they are passed, results with the type of their errors, receivers with whether they are `Arc<Self>`. A type that denotes something recordable is resolved, whatever was resolved before, and circular aliases are reported.", "quantifier": "all crates with their modules, all aliases, custom types, UDL types and exported traits, all written types, all earlier lookups and searches", "why_tests_cant": "resolution mixes scopes of several modules, parameters of nested aliases and caches; a wrong scope gives a valid but different type only for particular combinations of names", "anchors": ["uniffi_parse_rs/src/types.rs: _resolve_type, resolve_generic_params, GenericArgs, try_into_uniffi_meta, resolve_arg, resolve_return_type, resolve_self_type"]}
{"id": "C61", "title": "UDL files mean what they say", "statement": "For every UDL file that is accepted, the API's metadata is exactly what the file's definitions say, whatever their order: every function, record, enum, error, object, constructor, method, callback interface, custom type and trait that is declared is there, with its types resolved to the declared or builtin types they name, its attributes (async, throws, name, by-reference, by-Arc, remote, non-exhaustive, traits) and its documentation, and nothing else is. A file whose definitions are all well formed, with distinct names, is accepted; reading never panics.", "quantifier": "all parsed UDL files, all crate names, all readings of default values and docstrings", "why_tests_cant": "attributes, forward references, nesting of types and kinds of definitions combine without bound; an attribute that is accepted but ignored shows only for the kind of definition that ignores it", "anchors": ["uniffi_udl/src/collectors.rs: InterfaceCollector::from_webidl, APIBuilder::process, TypeCollector", "uniffi_udl/src/finder.rs: TypeFinder", "uniffi_udl/src/resolver.rs: TypeResolver", "uniffi_udl/src/attributes.rs", "uniffi_udl/src/converters/mod.rs, callables.rs, enum_.rs, interface.rs: APIConverter"]}
{"id": "C62", "title": "Both builders of the API present the same API", "statement": "From the metadata of a library's crates two representations of the API are built: the component interface (Kotlin, Swift, Ruby) and the tree of the bindgen pipeline (Python and others). For every set of metadata items, each of them holds exactly what the items say: every function and every type once, every type with exactly its constructors, methods, traits and trait implementations, trait methods in their order, the first docs of a custom type. Hence both present the same API; the types in the tree name the namespace of their crate and the name that their definition has in Rust; and what one accepts the other accepts.", "quantifier": "all lists of groups of metadata items, of any size and order", "why_tests_cant": "the two builders are separate programs over the same items; they differ only for combinations of items that fixtures do not contain", "anchors": ["uniffi_bindgen/src/interface/mod.rs: ComponentInterface::add_metadata", "uniffi_bindgen/src/macro_metadata/ci.rs: add_to_ci", "uniffi_bindgen/src/loader.rs: load_cis, load_pipeline_initial_root", "uniffi_bindgen/src/pipeline/initial/from_uniffi_meta.rs: UniffiMetaConverter", "uniffi_bindgen/src/pipeline/initial/context.rs", "uniffi_bindgen/src/pipeline/initial/types.rs", "uniffi_bindgen/src/pipeline/initial/nodes.rs"]}
{"id": "C63", "title": "Excluding and renaming items leaves consistent bindings", "statement": "When a configuration file excludes or renames items, the generated bindings present exactly the items that are not excluded, under every backend the same ones; each function and method that stays calls the exported function of its own item, whatever it was renamed to; everything the bindings call is declared, and everything declared is exported by the library, on account of an item that stays; the table of methods handed to Rust for a trait implemented in the foreign language has all methods of the trait, in their order, and is handed to the exported function of that trait; and no part of the bindings mentions a type that is not in them.", "quantifier": "all metadata items of crates, all lists of excluded names and all tables of new names", "why_tests_cant": "which symbols, tables and converters depend on an item is decided in many places, before and after the exclusion; fixtures exclude a few items that nothing else depends on", "anchors": ["uniffi_bindgen/src/interface/exclude.rs: apply_exclusions", "uniffi_bindgen/src/interface/rename.rs: rename", "uniffi_bindgen/src/interface/object.rs: ffi_init_callback, vtable_methods", "uniffi_bindgen/src/interface/callbacks.rs", "uniffi_bindgen/src/interface/mod.rs: iter_ffi_function_definitions, iter_checksums", "uniffi_bindgen/src/pipeline/general/exclude.rs", "uniffi_bindgen/src/pipeline/general/namespaces.rs: map_namespace", "uniffi_bindgen/src/pipeline/general/callable.rs", "uniffi_bindgen/src/pipeline/general/ffi_functions.rs", "uniffi_bindgen/src/pipeline/general/checksums.rs", "uniffi_bindgen/src/pipeline/general/type_definitions_from_api.rs", "docs/manual/src/renaming.md"]}
{"id": "C64", "title": "Values passed between Rust and Swift stay the same values", "statement": "A Rust value that is passed to Swift (returned, or an argument of a callback) arrives as the same value, and a Swift value that is passed to Rust is read by Rust as the same value: integers, floats, booleans, strings, bytes, options however nested, sequences, maps, sets, records, enums, errors, objects and custom types exactly; instants and durations up to the precision of the doubles Swift keeps them in. A value that is passed there and back is unchanged. Bytes that are left over are refused.", "quantifier": "all interfaces, all types, all values at any depth of nesting, all doubles", "why_tests_cant": "the rounding of doubles, the equality of Swift strings and the nesting of options decide it; tests try a few values", "anchors": ["uniffi_bindgen/src/bindings/swift/templates/RustBufferTemplate.swift: readInt, readBytes, FfiConverterRustBuffer", "uniffi_bindgen/src/bindings/swift/templates/DurationHelper.swift", "uniffi_bindgen/src/bindings/swift/templates/TimestampHelper.swift", "uniffi_bindgen/src/bindings/swift/templates/StringHelper.swift", "uniffi_bindgen/src/bindings/swift/templates/OptionalTemplate.swift", "uniffi_bindgen/src/bindings/swift/templates/MapTemplate.swift", "uniffi_bindgen/src/bindings/swift/templates/SetTemplate.swift", "uniffi_bindgen/src/bindings/swift/templates/EnumTemplate.swift", "uniffi_bindgen/src/bindings/swift/templates/ErrorTemplate.swift", "uniffi_bindgen/src/bindings/swift/templates/RecordTemplate.swift", "uniffi_core/src/ffi_converter_impls.rs"]}
{"id": "C65", "title": "Everything passed across a call is released exactly once", "statement": "Every buffer that is allocated for an argument, a result, an error or a message, every reference to an object that is put in one or passed beside it, and every reference that an asynchronous call needs is released or taken over exactly once: never twice, never used afterwards, and nothing is left when the call is over, whether it returns, returns an error, panics, is cancelled, or a value cannot be converted. This holds for calls to Rust and for callbacks, synchronous and asynchronous, in Python, Kotlin, Swift and Ruby, whatever else is going on.", "quantifier": "all languages, all argument lists, all values however many objects they hold and wherever their conversion fails, all outcomes, all points of interruption, all histories of calls, all states of the heap", "why_tests_cant": "a leak does not fail a test, and where it happens depends on which argument fails, at which place in it, and on when a task is cancelled", "anchors": ["uniffi_bindgen/src/bindings/python/templates/RustBufferTemplate.py: alloc_with_builder, consume_with_stream", "uniffi_bindgen/src/bindings/kotlin/templates/FfiConverterTemplate.kt: lowerIntoRustBuffer, liftFromRustBuffer", "uniffi_bindgen/src/bindings/kotlin/templates/ObjectTemplate.kt: ErrorHandler", "uniffi_bindgen/src/bindings/swift/templates/RustBufferTemplate.swift: FfiConverterRustBuffer", "uniffi_bindgen/src/bindings/swift/templates/ObjectTemplate.swift: __as_error", "uniffi_bindgen/src/bindings/ruby/templates/RustBufferTemplate.rb", "uniffi_bindgen/src/bindings/*/templates/Helpers.*", "uniffi_bindgen/src/bindings/*/templates/Async.*", "uniffi_bindgen/src/bindings/*/templates/CallbackInterfaceImpl.*", "uniffi_core/src/ffi_converter_traits.rs: try_lift_from_rust_buffer, lower_into_rust_buffer, lift_foreign_return", "uniffi_core/src/ffi/rustcalls.rs: rust_call", "uniffi_core/src/ffi/rustfuture/future.rs: free", "uniffi_core/src/ffi/foreignfuture.rs: foreign_async_call", "uniffi_macros/src/export/scaffolding.rs: gen_ffi_function", "uniffi_macros/src/fnsig.rs: lift_closure"]}
{"id": "C66", "title": "Names keep their words, stay apart and are accepted in every language", "statement": "A function, argument, field, type or variant has in the bindings a name made of the same words as in Rust, written as the language writes such names. It is accepted by the language: an identifier, not a reserved word (or quoted, or changed). Two different names of one kind in Rust are different in the bindings, they are different from the names the bindings use themselves in the same place, and a thing is used under the name it is declared with.", "quantifier": "all names, as lists of characters of any length; all kinds of things; Kotlin, Kotlin over JNI, Swift, Python and Ruby; all lists of methods, arguments, variants and types", "why_tests_cant": "names are unbounded texts, and conversions that look right for usual names merge, empty or reserve unusual ones", "anchors": ["uniffi_bindgen/src/bindings/kotlin/gen_kotlin/mod.rs: class_name, fn_name, var_name, enum_variant_name, error_variant_name, convert_error_suffix", "uniffi-bindgen-kotlin-jni/src/pipeline: name_kt", "uniffi_bindgen/src/bindings/swift/gen_swift/mod.rs: KEYWORDS, quote_general_keyword, class_name, fn_name, var_name, enum_variant_name", "uniffi_bindgen/src/bindings/python/pipeline/names.rs", "uniffi_bindgen/src/bindings/ruby/gen_ruby/mod.rs: class_name_rb, fn_name_rb, var_name_rb, enum_name_rb", "heck 0.5 (dependency): transform"]}
{"id": "C67", "title": "Exported Eq, Hash, Ord and Display mean the same in every language", "statement": "When a type exports Eq, Hash, Ord, Display or Debug, comparing, hashing and printing its values in a language of the bindings gives what the Rust traits give. Equality is an equivalence over all values of the language and raises nothing. Equal keys of a set or dictionary have the same hash code. Exactly one of less, equal and greater holds. Without exported traits, values of records and enums are compared by what they are made of. The bindings of a type that exports traits compile.", "quantifier": "all traits obeying the rules of Rust, all combinations of exported traits, all kinds of types (objects, records, enums with and without data, errors), all values of the same and of other types, five kinds of bindings", "why_tests_cant": "traits are arbitrary functions; each template decides anew which of them it uses, and languages add methods of their own", "anchors": ["uniffi_macros/src/export/utrait.rs", "uniffi_bindgen/src/interface/object.rs: UniffiTraitMethods", "uniffi_bindgen/src/bindings/python/templates/UniffiTraitImpls.py, RecordTemplate.py, EnumTemplate.py, ErrorTemplate.py", "uniffi_bindgen/src/bindings/kotlin/templates/macros.kt: uniffi_trait_impls, RecordTemplate.kt, EnumTemplate.kt, ErrorTemplate.kt, ObjectTemplate.kt", "uniffi_bindgen/src/bindings/kotlin/gen_kotlin/mod.rs: ensure_flat_enum_trait_methods_supported", "uniffi_bindgen/src/bindings/swift/gen_swift/mod.rs: conformance_list_for_record, conformance_list_for_enum, additional_conformance_list_for_error, conformance_list_for_object", "uniffi_bindgen/src/bindings/ruby/templates/UniffiTraitImpls.rb, RecordTemplate.rb, EnumTemplate.rb, ErrorTemplate.rb", "uniffi-bindgen-kotlin-jni/src/bindings/templates/Enum.kt, Record.kt, UniffiTraitMethods.kt"]}
{"id": "C68", "title": "The settings of a crate come from the documented places in the documented order", "statement": "Each setting of a crate is the one in its section of the global configuration file, otherwise the one in the crate's own uniffi.toml, otherwise the default of the global file; tables are merged key by key at every depth and other values are replaced. Generation fails only when a file cannot be read or two of them disagree on the kind of a value. The crate's own file and its UDL files are looked for in the root listed for the crate, otherwise in the directory of the package whose library has the crate's name. No setting that a user has written is dropped.", "quantifier": "all TOML tables of any depth, all global files, all sets of packages cargo reports, all lists of crate roots, all contents of the file system, three commands", "why_tests_cant": "merging is recursive over trees of any shape, and lookups depend on every other package of the build and on the order of the layers in each command", "anchors": ["uniffi_bindgen/src/lib.rs: merge_toml", "uniffi_bindgen/src/global_config.rs: GlobalConfig, CrateRootsLayer", "uniffi_bindgen/src/bindgen_paths.rs: BindgenPaths", "uniffi_bindgen/src/cargo_metadata.rs: CrateConfigSupplier, get_crate_root", "uniffi_bindgen/src/bindings/mod.rs: generate", "uniffi_bindgen/src/bindings/swift/mod.rs: generate_swift_bindings", "uniffi-bindgen-kotlin-jni/src/lib.rs", "docs/manual/src/configuration.md"]}
{"id": "C69", "title": "Parsing sources sees the crates and the features that cargo builds", "statement": "When bindings are generated from sources, the crates parsed are exactly those linked into the library that have bindings, each once, under the name of its library, and each is parsed with exactly the features cargo would turn on for the options given. Writing the name of the crate with a hyphen or an underscore makes no difference, and asking for a crate that does not exist is an error.", "quantifier": "all graphs of packages with cycles, all feature tables, all kinds of dependencies, all options, all names", "why_tests_cant": "the result depends on the whole graph of dependencies and features; test projects have small graphs and few features", "anchors": ["uniffi_bindgen/src/cargo_metadata.rs: get_source_crates, should_parse_package, find_src_lib", "uniffi_bindgen/src/bindgen_paths.rs: SourceCrate, CargoMetadataOptions", "uniffi_bindgen/src/loader.rs: load_metadata_specialized", "uniffi_parse_rs/src/ir.rs: add_crate_root"]}
{"id": "C70", "title": "Every exported item is read from a library file, once, and nothing else is", "statement": "Generating bindings from a built library (ELF, PE, Mach-O with one or several architectures, static archive, COFF object) sees every item exported in it exactly once and nothing else: the data read for each exported symbol is the data that the file format says the symbol stands for. Symbols that are not metadata have no effect, and a damaged file is refused with an error.", "quantifier": "all symbol tables, sections, extended section indexes, exports, archive indexes and members, nested at any depth; all contents of the file", "why_tests_cant": "tests read the few libraries a test machine builds; linkers are free in the order of sections, the names of members, stripping and section counts", "anchors": ["uniffi_bindgen/src/macro_metadata/extract.rs: extract_from_bytes, extract_from_elf, extract_from_pe, extract_from_mach, extract_from_macho, extract_from_archive, extract_from_coff, ExtractedItems, is_metadata_symbol"]}
{"id": "C71", "title": "An exported item is described alike by its sources and by the library built from them", "statement": "Bindings can be generated from the built library, whose metadata the macros wrote, or from the crate's sources. Both give the same description of every exported item: the same names for the bindings and in Rust, fields, variants and their values, arguments and default values, types, errors, asynchrony, documentation, built-in traits and kinds of traits; and what one of them accepts the other accepts.", "quantifier": "all items: records, enums, errors, objects, functions, impl blocks and traits, with all combinations and orders of attributes, arguments, default values, values of variants and doc comments", "why_tests_cant": "the two front ends are separate parsers for the same attributes; fixtures run both on a handful of crates, and the differences lie in combinations of attributes", "anchors": ["uniffi_macros/src/record.rs: expand_record", "uniffi_macros/src/enum_.rs, error.rs, object.rs", "uniffi_macros/src/default.rs: metadata_calls", "uniffi_macros/src/fnsig.rs: FnSignature::new", "uniffi_macros/src/export/attributes.rs, item.rs, utrait.rs", "uniffi_parse_rs/src/attrs", "uniffi_parse_rs/src/records.rs, enums.rs, functions.rs, objects.rs, impls.rs, traits.rs", "uniffi_parse_rs/src/modules.rs: create_metadata", "uniffi_meta/src/reader.rs: read_metadata"]}
{"id": "C72", "title": "A library built from a UDL file has what its bindings need", "statement": "The Rust code generated from a UDL file is accepted by the macros, and the library built of it exports exactly the functions that the declarations ask for: one for each function, constructor, method and built-in trait, those that clone and free objects, those that take tables of methods, and the checksums. So the bindings generated from the same file, for every language and configuration, find every function they look up. What the generated code says of each declaration is what the file says (names, arguments and how they are passed, results, errors, asynchrony, fields, variants, traits), and the tables of methods that the bindings fill have the methods that Rust reads, in the same places; errors that foreign code throws can be read in Rust.", "quantifier": "all UDL files that are read, with all combinations of declarations, members, attributes and built-in traits; all binding configurations", "why_tests_cant": "the templates that write Rust, the macros that read it and the bindings decide separately what is exported; a missing function shows only when bindings for a declaration of just that shape are loaded", "anchors": ["uniffi_bindgen/src/scaffolding/templates/scaffolding_template.rs", "uniffi_bindgen/src/scaffolding/templates/EnumTemplate.rs, ErrorTemplate.rs, RecordTemplate.rs, ObjectTemplate.rs, CallbackInterfaceTemplate.rs, TopLevelFunctionTemplate.rs, Checksums.rs, macros.rs", "uniffi_bindgen/src/scaffolding/mod.rs: RustScaffolding", "uniffi_bindgen/src/interface/mod.rs: iter_checksums, is_name_used_as_error", "uniffi_macros/src/export.rs", "uniffi_macros/src/export/utrait.rs", "uniffi_macros/src/export/callback_interface.rs, trait_interface.rs"]}
{"id": "C73", "title": "Calls between Kotlin and Rust through JNI end as declared", "statement": "In the JNI bindings for Kotlin, a call of a Rust function gives the value that it returns, throws the declared error that it returns, and otherwise throws an InternalException that says what went wrong: an argument that cannot be converted, a panic, a Kotlin function that fails to lift the result. A call of a method implemented in Kotlin gives Rust the value that it returns or the declared error that it throws; any other exception becomes the error made from unexpected errors, or a panic if there is none. Whatever the calls do, however deep they are nested, no Java exception stays pending while Rust goes on, no JNI function is called that may not be called then, local frames are popped, objects passed by Kotlin are released when Rust drops them, and no panic leaves a function that the VM called. This holds too when the VM runs out of memory or a class is missing.", "quantifier": "all functions and callback methods, arguments, results, nested calls in both directions, conversions that fail or panic, and failures of JNI functions at any point", "why_tests_cant": "what happens depends on which of many JNI calls fails, in which state of the thread and at what depth of nested calls; JNI misuse is undefined behaviour that may pass unnoticed", "anchors": ["uniffi-bindgen-kotlin-jni/runtime/src: attach.rs, caching.rs, calls.rs, errors.rs, strings.rs", "uniffi-bindgen-kotlin-jni/src/scaffolding/templates/jni_method.rs", "uniffi-bindgen-kotlin-jni/src/scaffolding/templates/callback_interface.rs, callback_interface_shared.rs", "uniffi-bindgen-kotlin-jni/src/bindings/templates/shared/CallbackInterfaceFfi.kt", "uniffi-bindgen-kotlin-jni/src/bindings/templates/CallableBody.kt", "uniffi-bindgen-kotlin-jni/src/pipeline/callbacks.rs: jni_signature, jni_method_call_name"]}
{"id": "C74", "title": "Asynchronous calls through JNI end once, as the future or coroutine did", "statement": "In the JNI bindings for Kotlin, a suspend function that awaits a Rust future ends as the future did: with its value, its declared error or an InternalException for a panic. Whatever the order in which threads wake the future, clone and drop wakers and run the coroutine, each continuation is resumed exactly once and only while it is valid, the future is not polled after it ended, a future that was woken is polled again, it is never polled again without having been woken, and the call never hangs otherwise; cancelling the coroutine ends the call. The memory of the future is there as long as anyone can reach it and is given back afterwards, with all references that the VM holds for it. In the other direction, a Rust future that awaits a Kotlin coroutine gets the value or declared error that the coroutine came to, or an unexpected error with the message of the exception, and the channel between them is used and freed once.", "quantifier": "all interleavings of the coroutine, polls, wakes from any number of threads, clones and drops of wakers and cancellation; all ways in which the future, the coroutine and the conversions may end", "why_tests_cant": "lost wake-ups, double resumption, deadlocks and use after free depend on the interleaving of threads in a window of a few instructions", "anchors": ["uniffi-bindgen-kotlin-jni/src/bindings/templates/shared/Async.kt", "uniffi-bindgen-kotlin-jni/src/bindings/templates/shared/CallbackInterfaceFfi.kt", "uniffi-bindgen-kotlin-jni/src/scaffolding/templates/async.rs", "uniffi-bindgen-kotlin-jni/src/scaffolding/templates/callback_interface.rs", "uniffi_core/src/ffi/rustfuture/scheduler.rs: Scheduler", "uniffi_core/src/oneshot.rs: Sender, Receiver"]}
{"id": "C75", "title": "The text of a UDL file is read as it is written", "statement": "A UDL file that is written by the rules is read as exactly the definitions that were written, with their attributes, documentation, types, names and values, whatever white space and comments stand between the words. The same text never has two meanings. Comments may stand anywhere, and no text makes the reader panic.", "quantifier": "all lists of definitions, all ways of writing them with blanks and comments, and for panics all texts", "why_tests_cant": "the reader is made of ordered alternatives that try one form after the other; that none of them takes a part of what is meant for another must hold for every nesting of types, every name and every place of a comment", "anchors": ["weedle2/src/lib.rs: Definitions", "weedle2/src/whitespace.rs: sp, ws", "weedle2/src/term.rs: ident_tag", "weedle2/src/common.rs: Identifier, Docstring", "weedle2/src/literal.rs", "weedle2/src/types.rs", "weedle2/src/attribute.rs", "weedle2/src/interface.rs", "weedle2/src/dictionary.rs", "weedle2/src/macros.rs", "uniffi_udl/src/collectors.rs: InterfaceCollector::from_webidl"]}
{"id": "C76", "title": "From the text of a UDL file to its API", "statement": "The functions, records, enums, objects, callback interfaces and custom types that are made of the text of a UDL file are those that its definitions say, with the same names, types, default values, attributes and documentation: nothing is lost, changed or made up between the text and the API. How the text is laid out makes no difference, nor does the order of the definitions. Every text of a legal file is accepted, and no text ends in a panic.", "quantifier": "all UDL files, all ways of writing them with blanks and comments, all orders of definitions, all crate names, and for panics all texts", "why_tests_cant": "it joins an unbounded language of texts to an unbounded language of definitions; tests read a few files", "anchors": ["uniffi_udl/src/collectors.rs: InterfaceCollector::from_webidl", "uniffi_udl/src/finder.rs: TypeFinder", "uniffi_udl/src/resolver.rs: TypeResolver", "uniffi_udl/src/converters/mod.rs: APIConverter", "weedle2/src/lib.rs: Definitions"]}
