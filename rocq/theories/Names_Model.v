(** Model of the names of the C symbols a component exports: [uniffi_meta/src/ffi_names.rs], and its
    uses by the macros and by the two bindings generators. *)
From Verif Require Import Base Meta_Types.

(** [str::to_ascii_lowercase]. *)
Definition lower_byte (b : byte) : byte :=
  let n := b2n b in if (65 <=? n)%N && (n <=? 90)%N then n2b (n + 32) else b.
Definition lower (s : str) : str := map lower_byte s.

(** uniffi_meta/src/lib.rs l.703-705 [crate_name]: [module_path.split("::").next()]. *)
Fixpoint crate_name (mp : str) : str :=
  match mp with
  | [] => []
  | c :: r =>
      match r with
      | d :: _ => if byte_eqb c x3a && byte_eqb d x3a then [] else c :: crate_name r
      | [] => [c]
      end
  end.

(** [str::replace("::", "__")], from the left, not overlapping. *)
Fixpoint replace_colons (s : str) : str :=
  match s with
  | [] => []
  | c :: r =>
      match r with
      | d :: r' =>
          if byte_eqb c x3a && byte_eqb d x3a then x5f :: x5f :: replace_colons r'
          else c :: replace_colons r
      | [] => [c]
      end
  end.

Definition ns (mp : str) : str := replace_colons (crate_name mp).

(** ffi_names.rs l.19-99, one per function. *)
Definition fn_symbol_name (mp n : str) : str :=
  S_ "uniffi_" ++ ns mp ++ S_ "_fn_func_" ++ lower n.
Definition constructor_symbol_name (mp o n : str) : str :=
  S_ "uniffi_" ++ ns mp ++ S_ "_fn_constructor_" ++ lower o ++ S_ "_" ++ lower n.
Definition method_symbol_name (mp o n : str) : str :=
  S_ "uniffi_" ++ ns mp ++ S_ "_fn_method_" ++ lower o ++ S_ "_" ++ lower n.
Definition clone_fn_symbol_name (mp o : str) : str :=
  S_ "uniffi_" ++ ns mp ++ S_ "_fn_clone_" ++ lower o.
Definition free_fn_symbol_name (mp o : str) : str :=
  S_ "uniffi_" ++ ns mp ++ S_ "_fn_free_" ++ lower o.
Definition init_callback_vtable_fn_symbol_name (mp c : str) : str :=
  S_ "uniffi_" ++ ns mp ++ S_ "_fn_init_callback_vtable_" ++ lower c.
Definition fn_checksum_symbol_name (mp n : str) : str :=
  S_ "uniffi_" ++ ns mp ++ S_ "_checksum_func_" ++ lower n.
Definition constructor_checksum_symbol_name (mp o n : str) : str :=
  S_ "uniffi_" ++ ns mp ++ S_ "_checksum_constructor_" ++ lower o ++ S_ "_" ++ lower n.
Definition method_checksum_symbol_name (mp o n : str) : str :=
  S_ "uniffi_" ++ ns mp ++ S_ "_checksum_method_" ++ lower o ++ S_ "_" ++ lower n.

(** ffi_names.rs l.101-108 [ffi_buffer_symbol_name]. *)
Fixpoint strip_prefix (p s : str) : option str :=
  match p, s with
  | [], _ => Some s
  | a :: p', b :: s' => if byte_eqb a b then strip_prefix p' s' else None
  | _ :: _, [] => None
  end.
Definition ffi_buffer_symbol_name (f : str) : str :=
  match strip_prefix (S_ "uniffi_") f with
  | Some rest => S_ "uniffi_ffibuffer_" ++ rest
  | None => S_ "uniffi_ffibuffer_" ++ f
  end.

(** The crate-level functions.  uniffi_macros/src/setup_scaffolding.rs l.12-27, l.153-173;
    uniffi_bindgen/src/interface/mod.rs l.483-647; pipeline/general/rust_buffer.rs, rust_future.rs,
    checksums.rs l.62-67, ffi_async_data.rs l.48-93.  The macros take [module_path], replaced; the
    generators the crate's name. *)
Inductive fut_op := FPoll | FCancel | FComplete | FFree.
Inductive fut_ret :=
| RU8 | RI8 | RU16 | RI16 | RU32 | RI32 | RU64 | RI64 | RF32 | RF64 | RBuf | RVoid.
Inductive builtin :=
| BVersion | BAlloc | BFromBytes | BFree | BReserve
| BFuture (o : fut_op) (r : fut_ret).
Definition fut_op_name (o : fut_op) : str :=
  match o with
  | FPoll => S_ "poll" | FCancel => S_ "cancel" | FComplete => S_ "complete" | FFree => S_ "free"
  end.
Definition fut_ret_name (r : fut_ret) : str :=
  match r with
  | RU8 => S_ "u8" | RI8 => S_ "i8" | RU16 => S_ "u16" | RI16 => S_ "i16"
  | RU32 => S_ "u32" | RI32 => S_ "i32" | RU64 => S_ "u64" | RI64 => S_ "i64"
  | RF32 => S_ "f32" | RF64 => S_ "f64" | RBuf => S_ "rust_buffer" | RVoid => S_ "void"
  end.
Definition builtin_tail (b : builtin) : str :=
  match b with
  | BVersion => S_ "uniffi_contract_version"
  | BAlloc => S_ "rustbuffer_alloc"
  | BFromBytes => S_ "rustbuffer_from_bytes"
  | BFree => S_ "rustbuffer_free"
  | BReserve => S_ "rustbuffer_reserve"
  | BFuture o r => S_ "rust_future_" ++ fut_op_name o ++ S_ "_" ++ fut_ret_name r
  end.
Definition builtin_macro (mp : str) (b : builtin) : str :=
  S_ "ffi_" ++ replace_colons mp ++ S_ "_" ++ builtin_tail b.
Definition builtin_bindings (crate : str) (b : builtin) : str :=
  S_ "ffi_" ++ crate ++ S_ "_" ++ builtin_tail b.

(** * The scaffolding side

    The symbols the macros define for one exported item: the function itself and the function
    returning its checksum.  uniffi_macros/src/fnsig.rs l.258-279 [scaffolding_fn_ident] and l.433-455
    [checksum_symbol_name] ([self.name] is the exported name, after a [name = ".."] attribute);
    object.rs l.86-95, export/trait_interface.rs l.36-43, export/callback_interface.rs l.34-38. *)
Definition scaffolding_symbols (m : metadata) : list str :=
  match m with
  | MFunc f => [fn_symbol_name (f_mp f) (f_name f); fn_checksum_symbol_name (f_mp f) (f_name f)]
  | MConstructor s f =>
      [constructor_symbol_name (f_mp f) s (f_name f);
       constructor_checksum_symbol_name (f_mp f) s (f_name f)]
  | MMethod s f | MTraitMethod s _ f =>
      [method_symbol_name (f_mp f) s (f_name f); method_checksum_symbol_name (f_mp f) s (f_name f)]
  | MObject o => [clone_fn_symbol_name (o_mp o) (o_name o); free_fn_symbol_name (o_mp o) (o_name o)]
  | MCallback mp n _ => [init_callback_vtable_fn_symbol_name mp n]
  | _ => []
  end.

(** * The bindings side

    A callable as the generator keeps it: the name shown to the user, which renaming changes, and the
    symbols called, which it does not.  uniffi_bindgen/src/interface/function.rs l.48-75 and l.152-178,
    object.rs l.360-400, l.455-510 and l.610-635 ([Function], [Constructor], [Method] and their
    conversion from metadata, [rename]); for the pipeline, general/callable.rs l.28-140 and
    checksums.rs l.9-60, where the symbols come from the crate's name and the names in the initial
    IR. *)
Record callable := Callable { c_name : str; c_ffi : str; c_checksum_fn : str }.
Definition ci_callable (m : metadata) : option callable :=
  match m with
  | MFunc f =>
      Some (Callable (f_name f) (fn_symbol_name (f_mp f) (f_name f))
                     (fn_checksum_symbol_name (f_mp f) (f_name f)))
  | MConstructor s f =>
      Some (Callable (f_name f) (constructor_symbol_name (f_mp f) s (f_name f))
                     (constructor_checksum_symbol_name (f_mp f) s (f_name f)))
  | MMethod s f | MTraitMethod s _ f =>
      Some (Callable (f_name f) (method_symbol_name (f_mp f) s (f_name f))
                     (method_checksum_symbol_name (f_mp f) s (f_name f)))
  | _ => None
  end.
Definition ci_rename (new : str) (c : callable) : callable :=
  Callable new (c_ffi c) (c_checksum_fn c).

(** [table] is the rename table of the configuration, applied to the key [Type.name] or [name]
    (pipeline/general/rename.rs). *)
Definition renamed (table : str -> option str) (key n : str) : str :=
  match table key with Some n' => n' | None => n end.
Definition pipeline_callable (crate : str) (table : str -> option str) (m : metadata)
  : option callable :=
  match m with
  | MFunc f =>
      Some (Callable (renamed table (f_name f) (f_name f)) (fn_symbol_name crate (f_name f))
                     (fn_checksum_symbol_name crate (f_name f)))
  | MConstructor s f =>
      Some (Callable (renamed table (s ++ S_ "." ++ f_name f) (f_name f))
                     (constructor_symbol_name crate s (f_name f))
                     (constructor_checksum_symbol_name crate s (f_name f)))
  | MMethod s f | MTraitMethod s _ f =>
      Some (Callable (renamed table (s ++ S_ "." ++ f_name f) (f_name f))
                     (method_symbol_name crate s (f_name f))
                     (method_checksum_symbol_name crate s (f_name f)))
  | _ => None
  end.
(** Objects and callback interfaces: interface/object.rs l.330-350, ffi.rs l.220-235;
    pipeline/general/objects.rs l.7-20, callback_interfaces.rs l.18-21. *)
Definition pipeline_type_symbols (crate : str) (m : metadata) : list str :=
  match m with
  | MObject o => [clone_fn_symbol_name crate (o_name o); free_fn_symbol_name crate (o_name o)]
  | MCallback _ n _ => [init_callback_vtable_fn_symbol_name crate n]
  | _ => []
  end.
