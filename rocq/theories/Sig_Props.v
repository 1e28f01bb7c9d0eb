(** Property C55: the C types of the exported functions. *)
From Verif Require Import Base Meta_Types Names_Model Sig_Spec Sig_Model Sig_Claims Sig_Proofs Sig_Refute.

(** A function, method or constructor exported by the macros is declared with its own C type, unless an
    argument is a reference to bytes not written [&[u8]]; Ruby's also is, if no argument borrows bytes. *)
Theorem C55_function_partial : forall s f m, written_sig s = true -> macro_fn s = Some f -> macro_meta s = Some m ->
  existsb hidden_bytes (s_args s) = false ->
  declared m f /\ (existsb borrows_bytes (s_args s) = false -> untyped (rb_fn (ci_fn m)) = untyped f).
Proof. exact macro_agrees. Qed.
Print Assumptions C55_function_partial.

(** With such an argument no language's declaration is right. *)
Theorem C55_hidden_bytes : forall s f m, written_sig s = true -> macro_fn s = Some f -> macro_meta s = Some m ->
  existsb hidden_bytes (s_args s) = true ->
  sw_fn (ci_fn m) <> f /\ py_fn (pl_fn m) <> f /\ kt_fn (ci_fn m) <> jvm_fn f /\
  untyped (rb_fn (ci_fn m)) <> untyped f.
Proof. exact macro_disagrees. Qed.
Print Assumptions C55_hidden_bytes.

(** [fn f(data: &Vec<u8>)]: a structure of 24 bytes for Rust, one of 16 for everyone else. *)
Theorem C55_hidden_bytes_refuted : exists f m, written_sig vec_ref = true /\ macro_fn vec_ref = Some f /\ macro_meta vec_ref = Some m /\
  f = CFn [CStruct [cu64; cu64; CData]; CPtr rs_status] None /\
  sw_fn (ci_fn m) = CFn [CStruct [ci32; CData]; CPtr rs_status] None /\
  py_fn (pl_fn m) = CFn [CStruct [ci32; CData]; CPtr rs_status] None /\
  kt_fn (ci_fn m) = CFn [CStruct [ci32; CData]; CPtr (signless rs_status)] None.
Proof. exact R_vec. Qed.
Print Assumptions C55_hidden_bytes_refuted.

(** The functions on futures that serve an async function return its result's C type. *)
Theorem C55_future : forall s f m r, written_sig s = true -> macro_fn s = Some f -> macro_meta s = Some m ->
  lower_return (s_ret s) = Some r ->
  exists ft, ci_future m = Some ft /\ pl_future m = Some ft /\ fut_c ft = r.
Proof. exact future_right. Qed.
Print Assumptions C55_future.

(** The table of a trait or callback interface, if none of its methods is excluded. *)
Theorem C55_trait_partial : forall ex ss ms t, forallb written_sig ss = true ->
  macro_trait ss = Some t -> mapM macro_meta ss = Some (map snd ms) ->
  (forall m, In m ms -> ex (fst m) = false) -> table_right ex ms t.
Proof. exact trait_agrees. Qed.
Print Assumptions C55_trait_partial.

(** Python's, whatever is excluded. *)
Theorem C55_python_table : forall ss ms t, forallb written_sig ss = true ->
  macro_trait ss = Some t -> mapM macro_meta ss = Some (map snd ms) -> py_c (pl_table ms) = t.
Proof. exact python_table. Qed.
Print Assumptions C55_python_table.

(** With an excluded method Swift's table is wrong. *)
Theorem C55_excluded : forall ex ss ms t, macro_trait ss = Some t -> mapM macro_meta ss = Some (map snd ms) ->
  (exists m, In m ms /\ ex (fst m) = true) -> sw_c (ci_table ex ms) <> t.
Proof. exact excluded_wrong. Qed.
Print Assumptions C55_excluded.

(** Excluding the first of two like methods. *)
Theorem C55_excluded_refuted : exists t, macro_trait two = Some t /\ mapM macro_meta two = Some (map snd two_ms) /\
  (exists a b c d, t = CStruct [a; b; c; d] /\ sw_c (ci_table not_first two_ms) = CStruct [a; b; d] /\ c = d) /\
  py_c (pl_table two_ms) = t.
Proof. exact R_excluded. Qed.
Print Assumptions C55_excluded_refuted.

(** A function, method or constructor of a UDL file. *)
Theorem C55_udl_partial : forall c throws f, constructs c -> macro_fn (udl_sig c throws) = Some f ->
  declared c f /\ (existsb borrowed_bytes (c_inputs c) = false -> untyped (rb_fn (ci_fn c)) = untyped f).
Proof. exact udl_agrees. Qed.
Print Assumptions C55_udl_partial.

(** A method of a UDL trait foreign code can implement. *)
Theorem C55_udl_trait : forall c throws t, macro_slot (udl_sig c throws) = Some t -> slot_right c t.
Proof. exact udl_slot_agrees. Qed.
Print Assumptions C55_udl_trait.

(** A method of a UDL callback interface, unless it is async or borrows bytes. *)
Theorem C55_udl_callback_partial : forall c throws t, c_async c = false -> existsb borrowed_bytes (c_inputs c) = false ->
  macro_slot (udl_callback_sig c throws) = Some t -> slot_right c t.
Proof. exact udl_callback_agrees. Qed.
Print Assumptions C55_udl_callback_partial.

(** In Python, also if it borrows bytes. *)
Theorem C55_udl_callback_python : forall c throws t, c_async c = false ->
  macro_slot (udl_callback_sig c throws) = Some t -> py_c (pl_slot c) = t.
Proof. exact udl_callback_python. Qed.
Print Assumptions C55_udl_callback_python.

(** An async one is always wrong. *)
Theorem C55_udl_callback_async : forall c throws t, c_async c = true ->
  macro_slot (udl_callback_sig c throws) = Some t ->
  sw_c (ci_slot c) <> t /\ py_c (pl_slot c) <> t /\ kt_c (ci_slot c) <> signless t.
Proof. exact udl_callback_async. Qed.
Print Assumptions C55_udl_callback_async.

Theorem C55_udl_callback_async_refuted : exists t, macro_slot (udl_callback_sig cb_async None) = Some t /\
  t = CFn [cu64; CPtr cu32; CPtr rs_status] None /\
  sw_c (ci_slot cb_async) =
    CFn [cu64; CFn [cu64; CStruct [cu32; rs_status]] None; cu64; CPtr rs_dropped] None.
Proof. exact R_callback_async. Qed.
Print Assumptions C55_udl_callback_async_refuted.

Theorem C55_udl_callback_bytes_refuted : exists t, macro_slot (udl_callback_sig cb_bytes None) = Some t /\
  t = CFn [cu64; CStruct [cu64; cu64; CData]; CData; CPtr rs_status] None /\
  sw_c (ci_slot cb_bytes) = CFn [cu64; CStruct [ci32; CData]; CData; CPtr rs_status] None /\
  kt_c (ci_slot cb_bytes) <> signless t /\ py_c (pl_slot cb_bytes) = t.
Proof. exact R_callback_bytes. Qed.
Print Assumptions C55_udl_callback_bytes_refuted.

(** The functions every library exports. *)
Theorem C55_builtins_partial : forall b,
  sw_fn (ci_builtin b) = macro_builtin b /\ py_fn (pl_builtin b) = macro_builtin b /\
  kt_fn (ci_builtin b) = jvm_fn (macro_builtin b) /\
  (b <> BFromBytes -> untyped (rb_fn (ci_builtin b)) = untyped (macro_builtin b)).
Proof. exact builtins. Qed.
Print Assumptions C55_builtins_partial.

(** Cloning and freeing objects, and checksums. *)
Theorem C55_fixed : (sw_fn ci_clone = macro_clone /\ py_fn pl_clone = macro_clone /\ kt_fn ci_clone = jvm_fn macro_clone /\
   untyped (rb_fn ci_clone) = untyped macro_clone) /\
  (sw_fn ci_free = macro_free /\ py_fn pl_free = macro_free /\ kt_fn ci_free = jvm_fn macro_free /\
   untyped (rb_fn ci_free) = untyped macro_free) /\
  (sw_fn ci_checksum = macro_checksum /\ py_fn pl_checksum = macro_checksum /\
   kt_fn ci_checksum = jvm_fn macro_checksum /\ untyped (rb_fn ci_checksum) = untyped macro_checksum).
Proof. exact fixed. Qed.
Print Assumptions C55_fixed.

(** Ruby passes bytes by address. *)
Theorem C55_ruby_bytes_refuted : untyped (rb_fn (ci_builtin BFromBytes)) <> untyped (macro_builtin BFromBytes) /\
  exists f m, macro_fn slice_ref = Some f /\ macro_meta slice_ref = Some m /\ declared m f /\
    untyped (rb_fn (ci_fn m)) = CFn [CData; CData] None /\
    untyped f = CFn [CStruct [ci32; CData]; CData] None.
Proof. exact R_ruby. Qed.
Print Assumptions C55_ruby_bytes_refuted.
