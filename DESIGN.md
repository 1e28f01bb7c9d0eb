# A machine-checked model of mozilla/uniffi-rs

Everything is in Coq 8.16.1, in `rocq/theories`. `/repo` is the pinned source and
is only read. File layout, one group per subsystem `X`:

* `X_Model.v`  - total Gallina functions transcribing the code. Each definition
  cites the file and lines in `/repo` it models and states its simplifications.
* `X_Spec.v`   - (when needed) the small independent specification the
  properties are stated with.
* `X_Proofs.v` - lemmas.
* `X_Props.v`  - the property theorems only, closed by `exact`, each followed by
  an `Example` showing the hypotheses can be met, and `Print Assumptions`.

Conventions:

* A Rust panic is the value `Panic`, an `Err` is `Err`, running out of stack is
  `Deep`; no function is partial.
* Machine integers are `Z`/`N` with explicit range checks and explicit `mod`.
* Bytes are `Coq.Init.Byte.byte`; strings are their UTF-8 byte lists.
* Concurrency is a labelled step function over the atomic actions of the code
  (one lock-protected section or one atomic instruction is one step);
  a property over all interleavings is an invariant over all step lists.
* Names ending in `_refuted` prove that the code violates the property, with a
  computed witness. Names ending in `_partial` prove a part of a property.

## Per-property plan

| id | model | proof |
|----|-------|-------|
| C01 | `Wire`: universe of types with nominal, recursive records/enums; `write`, `read` | round trip by induction on the value |
| C02 | same `read` | totality: induction on depth; refuted for flat errors and Duration carry |
| C03, C05 | same | corollaries of round trip + extension stability of `read` |
| C04 | `try_lift_from_rust_buffer` | from C01 |
| C06 | SystemTime codec | refuted on (-1s,0), proved elsewhere |
| C07 | length prefixes | case analysis |
| C08 | enum/flat error codec | computation over positions; flat asymmetry refuted |
| C09 | map/set insert loop | induction over entries |
| C10 | `Python` codec against `Wire` | simulation by induction on types; `Option<Option<T>>` refuted |
| C11 | time codecs of Kotlin/Python/Ruby on integers | arithmetic |
| C12 | Kotlin `allocationSize` | induction on values; UTF-16 vs UTF-8 length lemma |
| C13 | buffer heap state machine | invariant over op lists |
| C14, C15 | `rust_call`, scaffolding | case analysis / induction on arguments |
| C16 | memory model with slices | list lemmas |
| C17, C18 | handle map state machine, tagging | invariant over op lists |
| C19 | Arc heap state machine | counting invariant |
| C20 | Kotlin atomic-step machine | counting invariant over interleavings; `lower` path refuted |
| C21-C24, C45 | RustFuture/scheduler interleaving machine | invariants |
| C25 | composition with the foreign loop and continuation map | invariant |
| C26, C46, C47 | oneshot channel and foreign_async_call as an interleaving machine; the foreign helper coroutines as functions of the outcome | invariant; C46 and C47 have refuted parts |
| C27-C30 | metadata writer and reader | parser round trip by induction on items |
| C31, C32 | FNV fold, metadata byte stream | equality / injectivity from round trip |
| C33 | name functions | collisions refuted, injectivity under side conditions |
| C34 | DFS with arbitrary edge order | soundness + weak completeness; completeness refuted |
| C35 | sorter | induction on the worklist |
| C36 | discriminant assignment | induction on variants; `u64` wrap refuted |
| C37 | canonical names | prefix-code argument; collisions refuted |
| C38 | type universe | induction on types; `Box` refuted |
| C39 | rename functions | induction on types; refutations |
| C40 | grouping fold | induction, permutation |
| C41 | FfiSerialize slots | round trip by induction on list |
| C42 | vtables and callback handle | indexing lemma, drop-once invariant |
| C43 | RecursiveTypeIterator | worklist invariant; `Box` refuted |
| C44 | version string + checksum list check | case analysis |
| C48 | Kotlin and Ruby codecs against `Wire` (shared with C10) | simulation by induction on values/types; existence of counterparts; Ruby `u8` refuted |
| C49 | layout builder and layouts of all definitions in sorted order | invariant: each entry of the layout map is that of its definition; offsets by induction on fields and items |
| C50 | lowering, lifting, reading and writing on both sides, with an explicit heap | weakest preconditions; induction on nesting; frame: blocks outside are unchanged; what is excluded is refuted by examples |
| C51 | FFI types of enums and the allocation of slots | counting argument: as many available slots of each type as any variant needs |
| C52 | sorting, FFI types, layouts and mapping of definitions | induction along the sorted order, with weights to bound sizes; refusals proved for whole classes or by example |
| C53 | reading defaults from UDL and metadata; writing them in five generators; Python's calls | independent readers for the literals of each language; induction on the meaning of defaults; digits by induction; failing characters and numbers refuted |
| C54 | reading documentation from UDL and macros; writing it in Kotlin, Swift and Python | texts as lists of lines; invariants on adjacent characters for comments; induction on texts cut at triple quotes for strings; backslashes in Python and indentation in Rust refuted |
| C55 | The C type of every exported function as the macros write it (types, references, receivers, async, tables, built-ins) and as the two interface models and four languages declare it. Theorems: they agree for all signatures except references to bytes not spelled `&[u8]` (there always wrong), excluded trait methods (Swift, Kotlin, Ruby lose a slot; Python does not), UDL callback interfaces that are async or borrow bytes, and Ruby's borrowed bytes; exact characterisation by case, and witnesses. |
| C56 | Modules, items and the whole lookup (cache, set of running lookups, namespaces, fallbacks) against two specifications by rules: what a path may refer to by any derivation, and what it does refer to when its meaning does not go in circles. Theorems for any sequence of lookups: all end (with a bound on the nesting); every found item is in its place and justified; a path with a well-founded meaning gets exactly it, found or missing, whatever came before (induction on the height of the meaning against the running lookups); names declared twice are not found. Refuted: independence of history (circular globs leave wrong entries in the cache), nothing reported missing (a glob of a module that comes through a glob; `pub use dep;`), `self::x`, privacy, the namespace of macros, absence of panics. |
| C57 | Attributes, the predicate evaluator and every place it is applied, with parse errors, against the Rust reference: truth of predicates over a set of options, expansion of `cfg_attr`, and a whole pass that turns sources into what the compiler compiles. Theorems: predicates of known options have Rust's truth; kept attributes are those the compiler leaves; reading the sources gives the same bindings (and the same names to look up) as reading what the compiler compiles. Refuted: other options (`unix`, `true`, so `not(unix)` holds on Linux), `cfg` inside `cfg_attr`, arguments, macro calls, heads of files, callback-error implementations, module documentation, `use`, `type`, absent types kept as names; `cfg(feature)` is an error. |
| C58 | Use trees and their flattening, with the error, against rules for what each kind of tree brings after a prefix. By induction on the tree: exactly those, each once, same visibility; refusals only for a bare `self`. Refuted: `self as x` (the path ends in a segment `self`, which no lookup finds) and refusing a bare `self as x`. |
| C59 | The search (modules by depth, globs recursively, searched modules remembered, answers cached) over the lookups of C56, against `pub_module` and `offers`. Ends (numbers of modules bound both recursions), sound for every earlier history; complete and of least depth for types when the public uses and globs are settled in the sense of C56, by an invariant that searched modules are closed under globs and without the item. Refuted: cache by text (a type and a function of one name), visibility of the item itself, shadowed names, functions behind globs (the glob's module is looked up as a function), re-exported modules, globs of enums. |
| C60 | Resolution of written types (fuel for nested resolutions) over the lookups of C56 and public paths of C59, against the relations `denotes` (aliases with parameters and defaults, scopes by module) and `records` (what metadata says). Sound from every cache for crates whose aliases use parameters only as direct arguments; complete and exact for those without lifetimes, with settled uses. Refuted: parameters deeper in an alias (another item of the parameter's name is taken), lifetimes on aliases, traits of other crates, renamed traits, custom types in private modules, circular aliases through generic arguments. |
| C61 | UDL files after the parse: attributes, the pass that finds types, the resolution of types and the conversions to metadata, against the relation `says` (what a file's definitions declare, without passes or state) and `legal` (which files should be accepted). Sound, complete, nothing left out, order of definitions immaterial, legal files accepted, no panics — each with the restriction that it needs. Refuted without the restriction: traits on `enum`, two `Throws`, names of builtin types, `static` on variants, custom types before their builtin, undefined errors of constructors (panic), two dictionaries of one name, words that the error message advises. |
| C62 | Both builders as functions on groups of metadata items: the component interface with all that it stores, the pipeline's converter with its maps, its lookups of namespaces and names in Rust, and the tree it makes. Against `says` (which functions, types and members an API has, said of the items alone): each builder holds what the items say, `says` determines the API, so they agree; the pipeline accepts what the component interface accepts, under conditions. Refuted without the conditions: two objects of one name, members without a type, types of two kinds, functions named like types, dashes, constructors of records, types of absent crates, shared namespaces, methods of one name, methods of two kinds. |
| C63 | On top of `Api`: exclusion, renaming of traits, and what each backend then generates (callables with their symbols, tables, converters, declared and checked symbols) as functions of items and configuration. Against a specification said of the items alone: which items are shown, which symbols a library exports for an item, which methods a table has, which types have to be there. Refuted: custom types cannot be excluded in Kotlin, Swift and Ruby; a renamed trait is handed to a function that does not exist; an excluded method shifts the table; Python declares and checks what it excludes; types that are excluded but used, and converters of types built from them, stay. |
| C64 | The Swift converters as functions between byte strings and Swift values, with IEEE doubles computed exactly as integers (units of 2^-1074), and Swift's comparison of strings as a parameter. A relation `same` between Rust and Swift values that mentions no reader or writer, parameterised by what instants and durations have to do with each other; three such clocks with stated error bounds. Proved: both directions, exact round trip for whole seconds, nothing left over. Refuted: fractions of a second on a round trip, durations above 2^63 seconds, equivalent strings and close instants as keys, dates in the second before 1970, negative lengths, bytes that are no bool. |
| C65 | The four ways of calling as programs over a heap of numbered buffers and references, in which releasing or using what is not alive is an outcome of its own; values are reduced to their objects and the places where their conversion fails. Ownership triples with a frame, proved for every step; from them an exact count of what every call leaves, for any heap. Proved: no call, in any history, releases twice or touches what belongs to others; nothing is left by calls whose values can be converted, even if they fail or panic; and the exact number left otherwise. Refuted: object errors in Kotlin and Swift, refused results in Swift, arguments around one that fails, results of cancelled calls, dropped callback futures: each without bound. |
| C66 | The word splitting of `heck` (the case conversions of all generators) as a function on lists of characters, and the naming functions of the five generators with their keyword tables. Names that follow the conventions of Rust are described without the splitting (words with capitals or underscores) and proved to be split into those words. Proved for all names: letters and digits are kept in order, so names meet only if these are equal; acceptance up to listed awkward names; that names following the conventions keep their words and stay apart; that members, parameters, interfaces stay apart under stated conditions. Refuted: awkward names, `Error`/`Exception` in Kotlin, `close`, `message`, `initialize`, `self`, hidden modules, companions, names used otherwise than declared. |
| C67 | The methods the templates write for each kind of type and each combination of traits, together with what the language adds (data classes, `enum.Enum`, synthesized conformances, `Comparable`, operators that ask the other side). Proved for all lawful traits: equality, order, text as in Rust where traits are used; equivalence over all values; same hash codes for equal keys when `Eq` and `Hash` go together; comparison by fields without traits; what compiles. Refuted: `Eq` without `Hash` in Kotlin and Swift; enums with data over JNI; types whose traits are ignored; records compared with other types in Python and Ruby; numbers in Ruby; exports that do not compile. |
| C68 | TOML as trees with a kind at each leaf; `merge_toml`, the sections of the global file, the maps made from `cargo metadata`, the layers of each command. Proved for trees of any depth: which source gives each setting, when merging fails, where files are looked for. Refuted: the JNI command asks cargo before the listed roots; global files of the old style and misspelt sections are dropped; sections with hyphens; a package named like another's library; two versions of a package; `1` and `1.5`. |
| C69 | The search of `get_source_crates` turn by turn over any graph of packages, against an inductive definition of what cargo links and turns on. Proved: the search ends (bound on the turns), which crates and features it finds, every linked crate with bindings is found, and agreement with cargo when dependencies are ordinary and only `default` turns on features. Refuted: features turned on by features or forwarded to dependencies; crates and features of tests; `src:my_app` for `my-app`; library names; unknown crates; two versions. |
| C70 | `extract_from_bytes` for all the formats, over files as parsed, against a separate definition of where each format puts the data of a symbol. Proved by induction over nested archives: every item is read and nothing else, once each if no two members share a symbol; ELF, PE and COFF never yield anything else, sound or not. Refuted: stripped ELF libraries; Mach-O sections out of address order; archive members with one name; one symbol in two members; statics named `UNIFFI_META…`; undefined references; damaged files panic; further architectures; unrelated COFF symbols. |
| C71 | Both front ends over one parsed item: `macros` (attributes, defaults, signatures, `impl` blocks, traits, built-in traits) followed by the writer and reader of C27, and `sources`. Attribute parsing is compared by a simulation between merging and folding; defaults by induction on the value. Proved for all items without a short list of features, and that the source reader accepts what the macros accept for items written tidily; each of these is refuted by an item: values without `repr`, `repr` on errors, `Arc` receivers, remote types, trait impls, renamed types with methods or built-in traits, raw names, unnamed renamed fields, `use … as`, two method attributes; and items that only one side accepts, or that make an unreadable library. |
| C72 | The templates as functions from the interface (C62) to items of the macros (C71), followed by `macros` of C71 and by the list of symbols each expanded item exports. Specification: the symbols C63 says items ask for; `again` for what the code says. Proved for all UDL items, by cases on definitions and their views; every file that is read (C61) gives such items. Linked with C63 for all bindings. Refuted: an enum with Display and not Debug misses a function (and the other way round exports another), errors and traits with built-in traits miss theirs, callback interfaces lose `async`, mutable borrows of anything but bytes become immutable, a flat error as an argument panics. |
| C73 | A thread of the VM (pending exception, local frames, attachment, cached lookups, handle maps) as the state of a monad in which each JNI function may fail; the generated native method, the generated implementation of a trait, its Kotlin counterpart and the runtime on top of it; Rust and Kotlin programs that call each other as mutually inductive trees. Specification: the same programs without JNI, with outcomes and objects only. Proved by mutual induction on the programs: same outcomes, same objects, nothing pending, frames as before. Refuted where the VM fails (getMessage, lookups, memory, ThrowNew), where conversions panic in callbacks, for objects after a bad argument, for the attachment of threads, and for the JNI function that calls boolean and asynchronous methods. |
| C74 | Part 1: a transition system with one coroutine (14 program points, the states of its continuation), the scheduler behind its lock, and any number of wakers and waking threads; steps of the program, the start of a poll and what other code does are told apart. An inductive invariant gives memory safety, single resumption and the result for every reachable state; progress (no deadlock, woken implies polled again, bounded work between polls) from the invariant and a measure when coroutines are dispatched. No more polls than wakes and one: each state owes a number of polls, and only wakes raise it. Refuted: deadlock when the coroutine runs on in the waking thread, null results, cancellation. Part 2: a call in the other direction as a function from what each part comes to; the answer and the uses of the sender, by cases. Refuted: double use, leak, lost message. |
| C75 | The grammar as a value of a small language of combinators, with the interpreter that nom is for it on texts. The specification says which texts spell which tokens (any blanks and comments between) and which tokens each definition has. A second interpreter on tokens; by induction on the grammar the two agree on every spelling (each lexer takes no part of a word). On tokens each form is given back, by induction on types and lists. Reading (also with commas after the last variants), uniqueness, absence of panics (each definition takes something), and for every text the shapes of what is read. Refuted: a comment on the last line, before the first documentation, between its lines; names with underscores; numbers and strings. |
| C76 | The reader of C75, then the collector of C61, joined by a function from the parser's syntax trees to the definitions of C61 (which forms the collector looks into). The specification writes a file of C61 down as tokens by itself; that reading gives the file back is proved by induction on types and lists, then C75 and C61 compose. Reading as written, all and only what the file says, acceptance, freedom of layout and order, no panics. Refuted: a constructor that throws an undefined error makes reading panic. |

## Trusted base

* Coq's kernel (and `coqchk`, which `vcheck` runs).
* `Print Assumptions` stands under every property theorem; each one prints
  "Closed under the global context". No axiom is declared or used. `coqchk` lists
  `Coq.ssr.ssrunder.*` because the library is loaded through the standard
  library's tactics; no theorem depends on it.
* The fidelity of the transcription. Each definition cites its source lines and
  states its simplifications.

### What is modelled

| group | code in `/repo` | main simplifications |
|-------|-----------------|----------------------|
| `Wire` (C01-C09) | `uniffi_core/src/ffi_converter_impls.rs`, `ffi_converter_traits.rs`, code generated by `uniffi_macros/src/{record,enum_,error,object,custom}.rs` | floats are bit patterns; stack depth is a number; the user's custom-type conversions and `Display` are parameters |
| `Fgn` (C10-C12, C48) | Python, Kotlin and Ruby templates that read and write buffers, Kotlin's `allocationSize` | custom types without foreign configuration; `struct.pack`, `ByteBuffer`, `pack` and `java.time` as documented by their platforms; float narrowing and widening as IEEE 754 |
| `Buf` (C13, C16) | `ffi/rustbuffer.rs`, `foreignbytes.rs`, `rustcalls.rs` | explicit heap; allocator as documented by `Vec` |
| `Scaf` (C14, C15) | `uniffi_macros/src/export/scaffolding.rs`, `fnsig.rs`, Python and Kotlin `Helpers` | user functions and lifts are arbitrary parameters |
| `Obj` (C17, C19) | `ffi/handle.rs`, object and trait-interface converters | one object type, one trait; each FFI function one step |
| `Hmap` (C18) | the handle maps of the four languages | library maps are atomic |
| `Kobj` (C20) | Kotlin's object life cycle | JDK `Cleaner` as documented |
| `Async` (C21-C24, C45), `Loop` (C25), `Ffut` (C26, C46, C47) | `ffi/rustfuture/*`, `oneshot.rs`, `foreignfuture.rs`, the async templates | sequentially consistent; one step per critical section; no mutex poisoning |
| `Meta` (C27-C32) | metadata writers of the macros, `uniffi_core/src/metadata.rs`, `uniffi_meta/src/reader.rs` | the parsing of Rust syntax is not modelled |
| `Names` (C33), `Csum` (C31, C32) | `uniffi_meta/src/ffi_names.rs`, `Checksum` | the hash is a parameter |
| `Cyc` (C34), `Sort` (C35), `Disc` (C36), `Canon` (C37), `Univ` (C38), `Ren` (C39), `Group` (C40), `Reach` (C43) | passes of `uniffi_bindgen/src/pipeline/general`, `uniffi_bindgen/src/interface`, `uniffi_meta/src/group.rs` | only the data the pass looks at |
| `Fser` (C41) | `ffi/ffiserialize.rs` | little-endian, 64-bit |
| `Cbk` (C42) | vtables and calls of foreign trait implementations | the generated Rust vtable struct carries no `repr(C)` although the documentation says so; its fields are taken to be laid out in order of declaration |
| `Jni` (C49-C52) | `uniffi-bindgen-kotlin-jni`: `pipeline/{ffi_buffer,ffi_types,records,enums,compounds,context,root}.rs`, the templates that lower, lift, read and write values, `runtime/src/{lift_lower,strings}.rs`, `uniffi_core/src/ffi/ffibuffer.rs` | functions, async, callbacks' methods and the caches of JNI ids are left out; custom types' conversions are the identity; strings are code points; sets and maps are lists of distinct entries |
| `Lit` (C53) | `uniffi_udl/src/literal.rs`, the literals of `uniffi_meta/src/reader.rs`, `bindings/python/pipeline/default.rs` with `CallableArgs.py` and `CallableBody.py`, the `default`, `render_literal` and natural defaults of the Kotlin, Swift and Ruby generators and of `uniffi-bindgen-kotlin-jni` | names of classes and variants are a parameter; the languages' lexers are modelled only for the expressions written (no escapes by code point); fractions are exact rationals |
| `Doc` (C54) | `docstring` in `weedle2/src/common.rs`, `convert_docstring` in `uniffi_udl`, `extract_docstring` in `uniffi_macros/src/util.rs`, the `docstring` filters of the Kotlin, Swift and Python generators | textwrap's `indent` and `dedent` and Rust's `lines`, `replace`, `trim` are modelled from their documentation (their source is not in /repo); white space is ASCII only; Python's `\\u`, `\\U`, `\\N` escapes are not read; Ruby and the JNI generator write no documentation |
| `Sig` | uniffi_macros fnsig.rs, export/scaffolding.rs, export/callback_interface.rs, object.rs, setup_scaffolding.rs; uniffi_core FfiType associations; scaffolding/mod.rs and templates (UDL); interface/ffi.rs, function.rs, callbacks.rs, mod.rs; pipeline/general ffi_types, ffi_functions, callback_interfaces; type names of the four languages | names of structs and callbacks (given by their definitions), calling conventions and padding, kotlin-jni (see `Jni`) |
| `Path` | uniffi_parse_rs paths.rs (all but the printing of paths), lookup_udl_item, Item::ident / is / is_special, the table of known items | `r#` identifiers, generic arguments of paths, error locations; what becomes of a failed lookup in the callers; hash order of the cache (not observable) |
| `Cfg` | uniffi_parse_rs compile_env.rs; the filtering in modules.rs, ir.rs resolve_item, records/enums/impls/traits/functions parse, attrs (which attributes are left) | what target_lexicon calls a target (a hypothesis: the options agree with it; its names for Apple and 32-bit targets differ from rustc's); trailing commas; names under which UniFFI's macros are imported (C56); files of modules |
| `Use` | uniffi_parse_rs use_.rs | `r#` identifiers, spans; that `{self}` brings only the module and not a function of the same name |
| `Pub` | uniffi_parse_rs public_paths.rs | text of errors and their wrapping; `#[macro_export]` and other ways into the root |
| `Rty` | uniffi_parse_rs types.rs | text of errors; generic arguments on other than the last name; `impl Trait` and other types that are refused |
| `Udl` | uniffi_udl collectors.rs, finder.rs, resolver.rs, attributes.rs, converters/ | weedle2's grammar; text of errors; literals (`Lit`), docstrings (`Doc`) |
| `Api` | uniffi_bindgen interface/mod.rs `add_metadata` and what it stores, pipeline/initial/ (from_uniffi_meta.rs, context.rs, types.rs, nodes.rs), loader.rs loops | config files and module docs; order of lists other than methods; text of errors; grouping itself (`Group`) |
| `Excl` | uniffi_bindgen interface/exclude.rs, the new names of traits in rename.rs, symbols and tables in object.rs, callbacks.rs and mod.rs, pipeline/general (exclude.rs, namespaces.rs, callable.rs, callback_interfaces.rs, ffi_functions.rs, objects.rs, checksums.rs, type_definitions_from_api.rs) | names of other items after renaming (`Ren`); types of symbols (`Sig`); text that is generated |
| `Swf` | the Swift templates for scalars, strings, data, optionals, sequences, maps, sets, records, enums, errors, objects, timestamps and durations; Rust side as in `Wire` | infinite and NaN intervals; custom types with a Swift configuration; how ill-formed UTF-8 is repaired (a parameter); memory of the buffers |
| `Own` | the calls, callbacks, their asynchronous forms and the `RustBuffer` handling of the Python, Kotlin, Swift and Ruby templates; `rust_call`, scaffolding functions, `RustFuture::free`, `foreign_async_call` | what the values are (see `Wire`, `Fgn`, `Swf`); objects after they were lifted (see `Obj`, `Kobj`); memory of the languages themselves; failing allocation |
| `Idn` | `heck` 0.5 as used; `class_name`, `fn_name`, `var_name`, `enum_variant_name`, error and object names of the Kotlin, Kotlin JNI, Swift, Python and Ruby generators; keyword tables; names of members in the templates | names outside ASCII; names of FFI symbols (see `Names`); renaming in the configuration (see `Excl`); names of external crates |
| `Tra` | trait methods in the templates of Python, Kotlin, Kotlin JNI, Swift and Ruby; conformance lists of Swift; `ensure_flat_enum_trait_methods_supported` | flat errors; how fields are themselves compared (reduced to numbers); fields without names compared across types; the call into Rust (see `Scaf`, `Wire`) |
| `Tml` | `merge_toml`, `GlobalConfig::from_file`, `get_config`, `BindgenPaths`, `CrateConfigSupplier`, the order of layers in three commands | parsing of TOML; the warning printed for files of the old style; what each language does with a setting; reading `cargo metadata` |
| `Dep` | `get_source_crates`, `should_parse_package`, `find_src_lib`, the name under which a crate is parsed | renamed dependencies; feature resolver details beyond the Cargo reference's rules; reading `cargo metadata`; evaluation of `cfg` (see `Cfg`) |
| `Sym` | `extract_from_elf`, `_pe`, `_mach`, `_macho`, `_archive`, `_coff`, `ExtractedItems`, `is_metadata_symbol` | goblin's parsing of the formats; the reading of one item (see `Meta`); the order of a `HashSet` |
| `Src` | the attribute parsers and descriptions of uniffi_macros (`record`, `enum_`, `error`, `object`, `default`, `fnsig`, `export/*`) and of uniffi_parse_rs (`attrs/*`, `records`, `enums`, `functions`, `objects`, `impls`, `traits`) | `cfg` (C57), which paths are uniffi's (C56), the meaning of types (C60), public paths (C59), generics, custom types, UDL |
| `Stub` | the templates of uniffi_bindgen/src/scaffolding, `iter_checksums`, which names are errors; which symbols the macros export for each kind of item | the text of the templates, the user's own Rust, whether it fits the generated code, functions common to all libraries (buffers, futures, contract version) |
| `Jcall` | native methods and callback methods of the JNI bindings with the runtime they use | how values are converted (C49-C52), asynchronous calls, other threads' use of the cached lookups, Kotlin coroutines and cleaners |
| `Jasync` | Async.kt, async.rs and the asynchronous callback methods of the JNI bindings, with the scheduler | memory order inside the lock, Kotlin's dispatchers (a coroutine is dispatched, or runs on in the waking thread), a poisoned lock, conversion of values |
| `Weed` | how UDL texts are parsed, for the forms that UniFFI accepts | unions, mixins, partial definitions, iterables, attributes and constants of interfaces, variadic arguments, attributes with arguments, white space outside ASCII in `trim`, the size of the stack |
| `Whole` | `from_webidl` from text to metadata: `Weed`, then `Udl` | what `Weed` and `Udl` leave out; the theorems about texts leave out parents and special words of operations |
| `Vers` (C44) | load-time checks of Python, Kotlin, Swift | none beyond those of `Meta` and `Csum` |

The property numbers in the first column are a guide; `MANIFEST.json` lists the
theorems of each property.

### What is not modelled

The Rust compiler and borrow checker, the proc-macro parsing of Rust syntax, the
UDL parser, the Askama templates as text (only the code they generate is
modelled), the Swift buffer code, calls, callbacks and async in the JNI
flavour of the Kotlin bindings, the
command line and configuration files except renaming, the operating system's
loader, weak memory (locks and atomics are taken to be sequentially consistent).
