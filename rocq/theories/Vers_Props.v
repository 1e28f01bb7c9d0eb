(** C44: a library that does not match the bindings is refused when it is loaded.  [hash] is the hash
    of UDL items, whatever it is. *)
From Verif Require Import Base Meta_Types Meta_Spec Csum_Model Csum_Spec Vers_Model Vers_Spec Vers_Proofs Vers_Examples.
Open Scope Z_scope.

(** What is covered (see [covered]): functions, constructors and methods of objects and trait
    interfaces, and methods of callback interfaces (not by Python).

    Full statement: if the bindings accept the library, every item of the interface they were
    generated from is in the library, unchanged.  Partial: only covered items; not in Ruby, with the
    checks omitted, or when generated from sources; and as far as the 16-bit checksums can tell. *)
Theorem C44_accepted_partial hash d t v items b o l :
  Forall (readable d) items -> Forall (readable d) (lib_items l) ->
  generate hash d t v items = Some b -> load hash o b l = true ->
  (version_checked t o -> lib_version l = v) /\
  (sums_checked t o -> forall a, In a items -> covered t items a ->
     exists a', In a' (lib_items l) /\ api_symbol a' = api_symbol a /\
                api_checksum hash a' = api_checksum hash a).
Proof. exact (accepted_spec hash d t v items b o l). Qed.
Print Assumptions C44_accepted_partial.

(** Without a collision between items of the same name, the library's item is the same. *)
Theorem C44_accepted_unchanged_partial hash d t v items b o l :
  Forall (fits d) items -> Forall (fits d) (lib_items l) -> collision_free hash items (lib_items l) ->
  generate hash d t v items = Some b -> sums_checked t o -> load hash o b l = true ->
  forall a, In a items -> covered t items a ->
    exists a', In a' (lib_items l) /\ api_symbol a' = api_symbol a /\ same_item a a'.
Proof. rewrite sums_checked_iff. exact (accepted_same hash d t v items b o l). Qed.
Print Assumptions C44_accepted_unchanged_partial.

(** In every language, whatever the options: a library that lacks a covered item is refused. *)
Theorem C44_missing_refused hash d t v items b o l :
  Forall (readable d) items -> Forall (readable d) (lib_items l) ->
  generate hash d t v items = Some b -> load hash o b l = true ->
  forall a, In a items -> covered t items a ->
    exists a', In a' (lib_items l) /\ api_symbol a' = api_symbol a.
Proof. exact (missing_refused hash d t v items b o l). Qed.
Print Assumptions C44_missing_refused.

(** Checksums that are not checked make no difference: acceptance depends only on the names of what the
    library exports and, if it is checked, the version. *)
Theorem C44_unchecked hash o b l l' :
  ~ sums_checked (b_target b) o ->
  (version_checked (b_target b) o -> lib_version l = lib_version l') ->
  (forall s, In s (map fst (exports hash l)) <-> In s (map fst (exports hash l'))) ->
  load hash o b l = load hash o b l'.
Proof. exact (omitted hash o b l l'). Qed.
Print Assumptions C44_unchecked.

(** Bindings are generated for every readable library, and accept the library they come from. *)
Theorem C44_own_library_accepted hash d t v items o :
  Forall (readable d) items -> NoDup (map fst (exports hash (Lib v items))) ->
  exists b, generate hash d t v items = Some b /\ load hash o b (Lib v items) = true.
Proof.
  exact (fun R N => match generated hash d t v items R with
                    | ex_intro _ b G => ex_intro _ b (conj G (own_library hash d t v items b o R N G))
                    end).
Qed.
Print Assumptions C44_own_library_accepted.

(** Scaffolding generated by another version of the crate does not compile: the check never panics and
    holds exactly of equal versions shorter than ten bytes. *)
Theorem C44_runtime_version p b :
  exists r, check_compatible_version p b = Ok r /\ (r = true <-> p = b /\ (length p < 10)%nat).
Proof. exact (version_check p b). Qed.
Print Assumptions C44_runtime_version.

(** * What is not refused *)

(** A method of a record was changed. *)
Theorem C44_record_method_refuted : exists t, t <> Ruby /\
  try t std 30 (C TU32 [TString] [TI8] [TString] [TI32] TU32) = Some true.
Proof. exists Kotlin. split; [discriminate | vm_compute; reflexivity]. Qed.
Print Assumptions C44_record_method_refuted.

(** A field of a record was changed: values of the record are then misread. *)
Theorem C44_record_field_refuted : exists t, t <> Ruby /\
  try t std 30 (C TString [TI8] [TI8] [TString] [TI32] TU32) = Some true.
Proof. exists Kotlin. split; [discriminate | vm_compute; reflexivity]. Qed.
Print Assumptions C44_record_field_refuted.

(** A method of a callback interface was changed: Python accepts, Kotlin refuses. *)
Theorem C44_python_callback_refuted :
  try Python std 30 (C TU32 [TI8] [TI8] [TBytes] [TI32] TU32) = Some true /\
  try Kotlin std 30 (C TU32 [TI8] [TI8] [TBytes] [TI32] TU32) = Some false.
Proof. split; vm_compute; reflexivity. Qed.
Print Assumptions C44_python_callback_refuted.

(** Ruby accepts another contract version and other signatures. *)
Theorem C44_ruby_refuted : try Ruby std 31 (C TU32 [TI8] [TI16] [TString] [TBool] TU32) = Some true.
Proof. vm_compute. reflexivity. Qed.
Print Assumptions C44_ruby_refuted.

(** Generated from sources, Python accepts another contract version; Kotlin does not. *)
Theorem C44_python_source_version_refuted :
  try Python src 31 old = Some true /\ try Kotlin src 31 old = Some false.
Proof. split; vm_compute; reflexivity. Qed.
Print Assumptions C44_python_source_version_refuted.

(** [get(page: i32) -> u32] became [get(page: String) -> u8], which has the same checksum: every
    language accepts. *)
Theorem C44_collision_refuted : exists m m',
  no_checksum m <> no_checksum m' /\
  In (macro m) (items old) /\ In (macro m') (items (C TU32 [TI8] [TI8] [TString] [TString] TU8)) /\
  checksum_symbol m = checksum_symbol m' /\
  forall t, try t std 30 (C TU32 [TI8] [TI8] [TString] [TString] TU8) = Some true.
Proof.
  exists (MFunc (fn "get" [TI32] (Some TU32) None)), (MFunc (fn "get" [TString] (Some TU8) None)).
  split; [vm_compute; discriminate|]. split; [do 7 right; left; reflexivity|].
  split; [do 7 right; left; reflexivity|]. split; [reflexivity|]. intros []; vm_compute; reflexivity.
Qed.
Print Assumptions C44_collision_refuted.
