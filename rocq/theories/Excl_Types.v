(** What is generated for a crate under a configuration, as far as items and symbols go. *)
From Verif Require Import Base Meta_Types.

(** The part of [uniffi.toml] this is about: uniffi_bindgen/src/bindings/kotlin/gen_kotlin/mod.rs
    l.88-92, swift/gen_swift/mod.rs l.184-188, ruby/gen_ruby/mod.rs l.127-131 and
    pipeline/general/exclude.rs, rename.rs; docs/manual/src/renaming.md.  A value in [rename] that is
    not a string is left out. *)
Record conf := Conf { excluded : list str; renames : list (str * str) }.

(** A callable of the bindings, or an implementation of a trait of the standard library: the item it is
    for and the symbols it calls.  The name it has is C39. *)
Record call := Call { c_item : metadata; c_symbols : list str }.

(** A table of functions by which foreign code implements a trait: the symbol that takes it and the
    methods in its slots, in order.  The two slots every table begins with are left out. *)
Record table := Table { t_init : str; t_slots : list metadata }.

Record typ := Typ {
  y_item : metadata; y_constructors : list call; y_methods : list call; y_traits : list call;
  y_impls : list metadata; y_table : option table }.

(** [b_converters]: the types for which code is generated that reads and writes them, besides the
    types defined; [b_declared]: the symbols that must be there when the library is loaded;
    [b_checked]: those of them that return a checksum to be compared.  Types have the names they have
    in the items.  Left out: the symbols every library has (C33). *)
Record bindings := Bindings {
  b_functions : list call; b_types : list typ; b_converters : list ty;
  b_declared : list str; b_checked : list str }.
