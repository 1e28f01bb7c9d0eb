(** C33: symbol names.  [entity] and [symbol]: [Names_Spec]; the functions: [Names_Model]. *)
From Verif Require Import Base Meta_Types Meta_Model Meta_Spec Names_Model Names_Spec Names_Proofs
  Names_Examples.

(** The full property, "distinct items have distinct symbols", fails: methods of different types of one
    crate can share a symbol; so can functions in different modules of a crate, functions that differ
    in letter case only, and functions of different crates. *)
Theorem C33_distinct_refuted :
  exists e e', well_formed e /\ well_formed e' /\ symbol e = symbol e' /\ ~ same_up_to_case e e'.
Proof. exact underscore_collision. Qed.
Print Assumptions C33_distinct_refuted.
Theorem C33_distinct_modules_refuted :
  exists e e', well_formed e /\ well_formed e' /\ disciplined e /\ disciplined e' /\
    en_mp e <> en_mp e' /\ symbol e = symbol e'.
Proof. exact module_collision. Qed.
Print Assumptions C33_distinct_modules_refuted.
Theorem C33_distinct_case_refuted :
  exists e e', well_formed e /\ well_formed e' /\ disciplined e /\ disciplined e' /\
    en_mp e = en_mp e' /\ en_name e <> en_name e' /\ symbol e = symbol e'.
Proof. exact case_collision. Qed.
Print Assumptions C33_distinct_case_refuted.
Theorem C33_distinct_crates_refuted :
  exists e e', well_formed e /\ well_formed e' /\ en_type e = [] /\ en_type e' = [] /\
    crate_name (en_mp e) <> crate_name (en_mp e') /\ symbol e = symbol e'.
Proof. exact crate_collision. Qed.
Print Assumptions C33_distinct_crates_refuted.

(** What holds: if type names have no underscore and crate names do not contain [_fn_] or
    [_checksum_], two symbols are equal only for the same kind of function, of the same crate, type and
    name, up to letter case. *)
Theorem C33_distinct_partial e e' :
  well_formed e -> well_formed e' -> disciplined e -> disciplined e' ->
  symbol e = symbol e' -> same_up_to_case e e'.
Proof. exact (distinct e e'). Qed.
Print Assumptions C33_distinct_partial.

(** The symbols of the other entry points: crate-level functions are distinct from each other and from
    all the above; the alternate entry points (FFI buffer) clash only if the functions do. *)
Theorem C33_builtins_distinct crate b b' :
  builtin_bindings crate b = builtin_bindings crate b' -> b = b'.
Proof. exact (builtins_distinct crate b b'). Qed.
Print Assumptions C33_builtins_distinct.
Theorem C33_builtins_not_items crate b e : builtin_bindings crate b <> symbol e.
Proof. exact (builtin_not_symbol crate b e). Qed.
Print Assumptions C33_builtins_not_items.
Theorem C33_ffibuffer_names e e' :
  ffi_buffer_symbol_name (symbol e) = ffi_buffer_symbol_name (symbol e') -> symbol e = symbol e'.
Proof. exact (ffibuffer_inj e e'). Qed.
Print Assumptions C33_ffibuffer_names.

(** Both sides: for every recorded item, the bindings read from the library call exactly the symbols
    the scaffolding exports, however often the callable is renamed. *)
Theorem C33_bindings_call_exported d omp m b rest :
  recordable d m -> utf8 omp -> write omp m = Some b ->
  exists m', read d (b ++ rest) = Ok (m', rest) /\
    forall c news, ci_callable m' = Some c ->
      called (fold_right ci_rename c news) = scaffolding_symbols m.
Proof. exact (ci_calls_exported d omp m b rest). Qed.
Print Assumptions C33_bindings_call_exported.
(** The same for the generators based on the pipeline, under any rename table. *)
Theorem C33_pipeline_calls_exported d omp m b rest :
  recordable d m -> utf8 omp -> write omp m = Some b ->
  exists m', read d (b ++ rest) = Ok (m', rest) /\
    (forall table c, pipeline_callable (crate_name (item_mp m)) table m' = Some c ->
       called c = scaffolding_symbols m) /\
    (type_item m -> pipeline_type_symbols (crate_name (item_mp m)) m' = scaffolding_symbols m).
Proof. exact (pipeline_calls_exported d omp m b rest). Qed.
Print Assumptions C33_pipeline_calls_exported.
(** The crate-level functions. *)
Theorem C33_builtins_exported crate b :
  ~ In x3a crate -> builtin_macro crate b = builtin_bindings crate b.
Proof. exact (builtins_same crate b). Qed.
Print Assumptions C33_builtins_exported.
