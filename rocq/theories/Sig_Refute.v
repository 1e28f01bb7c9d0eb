(** Where the declarations are not what Rust exports. *)
From Verif Require Import Base Meta_Types Names_Model Sig_Spec Sig_Model Sig_Claims.

Definition s_f (args : list rarg) : rsig := RSig KFunction false args RUnit.
Definition vec_ref : rsig := s_f [RArg (S_ "data") Shared (RVec (RPrim PU8))].
Definition alias_ref : rsig := s_f [RArg (S_ "data") Shared (RSlice (RAlias (RPrim PU8)))].

(** [fn f(data: &Vec<u8>)], and [fn f(data: &[Byte])] for an alias [Byte] of [u8]. *)
Lemma R_vec : exists f m, written_sig vec_ref = true /\ macro_fn vec_ref = Some f /\ macro_meta vec_ref = Some m /\
  f = CFn [CStruct [cu64; cu64; CData]; CPtr rs_status] None /\
  sw_fn (ci_fn m) = CFn [CStruct [ci32; CData]; CPtr rs_status] None /\
  py_fn (pl_fn m) = CFn [CStruct [ci32; CData]; CPtr rs_status] None /\
  kt_fn (ci_fn m) = CFn [CStruct [ci32; CData]; CPtr (signless rs_status)] None.
Proof.
  exists (CFn [CStruct [cu64; cu64; CData]; CPtr rs_status] None),
    (CSig CFunction false [Param (S_ "data") TBytes ByRef None] None).
  repeat split; vm_compute; reflexivity.
Qed.
Lemma R_alias : exists f m, written_sig alias_ref = true /\ macro_fn alias_ref = Some f /\
  macro_meta alias_ref = Some m /\ f = CFn [CStruct [cu64; cu64; CData]; CPtr rs_status] None /\
  sw_fn (ci_fn m) = CFn [CStruct [ci32; CData]; CPtr rs_status] None.
Proof.
  exists (CFn [CStruct [cu64; cu64; CData]; CPtr rs_status] None),
    (CSig CFunction false [Param (S_ "data") TBytes ByRef None] None).
  repeat split; vm_compute; reflexivity.
Qed.

(** [callback interface C { void f([ByRef] bytes data); }]. *)
Definition cb_bytes : csig :=
  CSig (CMethod (TCallback (S_ "m") (S_ "C"))) false [Param (S_ "data") TBytes ByRef None] None.
Lemma R_callback_bytes : exists t, macro_slot (udl_callback_sig cb_bytes None) = Some t /\
  t = CFn [cu64; CStruct [cu64; cu64; CData]; CData; CPtr rs_status] None /\
  sw_c (ci_slot cb_bytes) = CFn [cu64; CStruct [ci32; CData]; CData; CPtr rs_status] None /\
  kt_c (ci_slot cb_bytes) <> signless t /\ py_c (pl_slot cb_bytes) = t.
Proof.
  exists (CFn [cu64; CStruct [cu64; cu64; CData]; CData; CPtr rs_status] None).
  split; [vm_compute; reflexivity|]. split; [reflexivity|]. split; [vm_compute; reflexivity|].
  split; [vm_compute; discriminate|vm_compute; reflexivity].
Qed.

(** [callback interface C { [Async] u32 f(); }]. *)
Definition cb_async : csig := CSig (CMethod (TCallback (S_ "m") (S_ "C"))) true [] (Some TU32).
Lemma R_callback_async : exists t, macro_slot (udl_callback_sig cb_async None) = Some t /\
  t = CFn [cu64; CPtr cu32; CPtr rs_status] None /\
  sw_c (ci_slot cb_async) =
    CFn [cu64; CFn [cu64; CStruct [cu32; rs_status]] None; cu64; CPtr rs_dropped] None.
Proof.
  exists (CFn [cu64; CPtr cu32; CPtr rs_status] None). repeat split; vm_compute; reflexivity.
Qed.

(** A trait with methods [first] and [second] of the same type, and a configuration that excludes
    [first]: what Swift takes for the slot of [second] is the slot of [first]. *)
Definition two : list rsig :=
  [RSig (KMethod (RDynTrait (S_ "m") (S_ "T") Both)) false [] (RPrim PU32);
   RSig (KMethod (RDynTrait (S_ "m") (S_ "T") Both)) false [] (RPrim PU32)].
Definition two_m : csig := CSig (CMethod (TObject (S_ "m") (S_ "T") (ITrait Both))) false [] (Some TU32).
Definition two_ms : list (str * csig) := [(S_ "first", two_m); (S_ "second", two_m)].
Definition not_first (n : str) : bool := bytes_eqb n (S_ "first").
Lemma R_excluded : exists t, macro_trait two = Some t /\ mapM macro_meta two = Some (map snd two_ms) /\
  (exists a b c d, t = CStruct [a; b; c; d] /\ sw_c (ci_table not_first two_ms) = CStruct [a; b; d] /\ c = d) /\
  py_c (pl_table two_ms) = t.
Proof.
  set (s := CFn [cu64; CPtr cu32; CPtr rs_status] None).
  exists (CStruct [CFn [cu64] None; CFn [cu64] (Some cu64); s; s]).
  split; [vm_compute; reflexivity|]. split; [vm_compute; reflexivity|]. split; [|vm_compute; reflexivity].
  exists (CFn [cu64] None), (CFn [cu64] (Some cu64)), s, s. repeat split; vm_compute; reflexivity.
Qed.

(** Ruby passes an address where Rust takes the structure itself: [rustbuffer_from_bytes], and
    [fn f(data: &[u8])]. *)
Definition slice_ref : rsig := s_f [RArg (S_ "data") Shared (RSlice (RPrim PU8))].
Lemma R_ruby : untyped (rb_fn (ci_builtin BFromBytes)) <> untyped (macro_builtin BFromBytes) /\
  exists f m, macro_fn slice_ref = Some f /\ macro_meta slice_ref = Some m /\ declared m f /\
    untyped (rb_fn (ci_fn m)) = CFn [CData; CData] None /\
    untyped f = CFn [CStruct [ci32; CData]; CData] None.
Proof.
  split; [vm_compute; discriminate|].
  exists (CFn [CStruct [ci32; CData]; CPtr rs_status] None),
    (CSig CFunction false [Param (S_ "data") TBytes ByRef None] None).
  repeat split; vm_compute; reflexivity.
Qed.
