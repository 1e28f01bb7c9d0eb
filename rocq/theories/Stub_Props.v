(** C72: a library built from a UDL file has what its bindings need, and the Rust that is generated for the
    file describes the items of the file again. *)
From Verif Require Import Base Meta_Types Group_Model Api_Types Api_Spec Api_Model Univ_Spec Excl_Types Excl_Spec Excl_Model.
From Verif Require Import Src_Model Stub_Model Stub_Spec Stub_Items Udl_Types Udl_Model Stub_Claims Stub_Links Stub_Refute Stub_Examples.
From Verif Require Udl_Examples.

(** The items of every UDL file that is read are items of the kind the theorems below are about. *)
Theorem C72_files : files_give_udl.
Proof. exact files_proof. Qed.
Print Assumptions C72_files.
Example C72_files_case : match Udl_Examples.read Udl_Examples.a_file with
  | UOk g => length (metas Udl_Refute.here (Udl_Types.g_items g)) = 12%nat | _ => False end.
Proof. vm_compute. reflexivity. Qed.

(** The library exports exactly the functions that the items ask for, provided that built-in traits are on
    no error and no trait, and that an enum has Debug if and only if it has Display. *)
Theorem C72_exports_partial : exports_right plain_traits.
Proof. exact exports_right_proof. Qed.
Print Assumptions C72_exports_partial.
Example C72_exports_case : from_udl ex (api_of ex) /\ plain_traits (Group_Model.g_items ex).
Proof. exact (conj ex_udl ex_traits). Qed.

(** The generated Rust is accepted by the macros, for all UDL files. *)
Theorem C72_accepted : accepted (fun _ => True).
Proof. exact accepted_proof. Qed.
Print Assumptions C72_accepted.
Example C72_accepted_case : exists l, scaffolding (S_ "a") no_remote no_arc (api_of ex) = Some l /\ length l = 22%nat.
Proof. eexists. split; [exact ex_library | reflexivity]. Qed.

(** Without these an exported function is missing, or one is there that nothing asks for. *)
Theorem C72_display_refuted : ~ exports_all (fun items => no_error_traits items /\ no_trait_traits items).
Proof. exact display_missing. Qed.
Print Assumptions C72_display_refuted.
Theorem C72_unwanted_refuted : ~ exports_only (fun items => no_error_traits items /\ no_trait_traits items).
Proof. exact display_unwanted. Qed.
Print Assumptions C72_unwanted_refuted.
Theorem C72_error_traits_refuted : ~ exports_all (fun items => no_trait_traits items /\ debug_and_display items).
Proof. exact failure_missing. Qed.
Print Assumptions C72_error_traits_refuted.
Theorem C72_trait_traits_refuted : ~ exports_all (fun items => no_error_traits items /\ debug_and_display items).
Proof. exact shape_missing. Qed.
Print Assumptions C72_trait_traits_refuted.

(** The Rust that is generated for a definition, with its members, and for a function describes it again. *)
Theorem C72_again_partial : described_again (fun items => plain_traits items /\ mutable_bytes items /\ plain_callbacks items).
Proof. exact described_proof. Qed.
Print Assumptions C72_again_partial.
Example C72_again_case : plain_traits (Group_Model.g_items ex) /\ mutable_bytes (Group_Model.g_items ex) /\ plain_callbacks (Group_Model.g_items ex).
Proof. exact ex_described. Qed.
(** An asynchronous method of a callback interface is described as one that is not; a mutable borrow as one
    that is not mutable. *)
Theorem C72_async_callback_refuted : ~ described_again (fun items => plain_traits items /\ mutable_bytes items).
Proof. exact awaits_otherwise. Qed.
Print Assumptions C72_async_callback_refuted.
Theorem C72_mutable_refuted : ~ described_again (fun items => plain_traits items /\ plain_callbacks items).
Proof. exact lends_otherwise. Qed.
Print Assumptions C72_mutable_refuted.

(** Bindings for Kotlin, Swift and Ruby declare functions of the library only, under every configuration that
    renames no trait with a table (C63). *)
Theorem C72_links_partial : ci_linked plain_traits.
Proof. exact ci_linked_proof. Qed.
Print Assumptions C72_links_partial.
Example C72_links_case : keeps_traits ex_conf (Group_Model.g_items ex) /\ exists b, ci_bindings ex_conf (Group_Model.g_items ex) = Ok b.
Proof. split; [exact ex_keeps |]. destruct ex_kotlin as (b & E & _). exists b. exact E. Qed.
Theorem C72_links_refuted : ~ ci_linked (fun items => no_error_traits items /\ no_trait_traits items).
Proof. exact ci_unlinked. Qed.
Print Assumptions C72_links_refuted.
(** Bindings for Python too. *)
Theorem C72_python_links_partial : pl_linked plain_traits.
Proof. exact pl_linked_proof. Qed.
Print Assumptions C72_python_links_partial.
Example C72_python_links_case : grouped [ex] /\ no_dashes [ex] /\
  (forall g, In g [ex] -> owned (Group_Model.g_items g) /\ types_differ (Group_Model.g_items g) /\ numbered (Group_Model.g_items g)) /\
  exists n b, pipeline [ex] = Ok [n] /\ pl_bindings ex_conf n = Ok b.
Proof.
  refine (conj ex_grouped (conj ex_dashes (conj ex_pl _))). destruct ex_python as (n & b & E & F & _). exists n, b. exact (conj E F).
Qed.
Theorem C72_python_links_refuted : ~ pl_linked (fun items => no_error_traits items /\ debug_and_display items).
Proof. exact pl_unlinked. Qed.
Print Assumptions C72_python_links_refuted.

(** Rust reads a table for a trait if and only if foreign code may implement it. *)
Theorem C72_tables : tables_for_foreign.
Proof. exact foreign_proof. Qed.
Print Assumptions C72_tables.
Example C72_tables_case : foreign both_item /\ exists v, In v (a_types (api_of ex)) /\ v_item v = both_item.
Proof.
  split; [left; reflexivity |]. exists (View both_item [] [MMethod (S_ "T") (Api_Refute.fn_ "a" "go" [] None)] [] []).
  split; [vm_compute; tauto | reflexivity].
Qed.
(** The tables that Kotlin and Swift fill have the methods that Rust reads, in the same places. *)
Theorem C72_tables_fit_partial : ci_tables_fit (fun _ => True).
Proof. exact ci_tables_proof. Qed.
Print Assumptions C72_tables_fit_partial.
Example C72_tables_fit_case : keeps_traits ex_conf (Group_Model.g_items ex) /\ whole_traits ex_conf (Group_Model.g_items ex).
Proof. exact (conj ex_keeps ex_whole). Qed.
(** So do those that Python fills for callback interfaces. *)
Theorem C72_python_tables_fit_partial : pl_tables_fit (fun _ => True).
Proof. exact pl_tables_proof. Qed.
Print Assumptions C72_python_tables_fit_partial.
Example C72_python_tables_fit_case : exists n b y t, pipeline [ex] = Ok [n] /\ pl_bindings ex_conf n = Ok b /\ In y (b_types b) /\
  callback (y_item y) /\ y_table y = Some t /\ method_names (t_slots t) = [S_ "second"; S_ "first"].
Proof. exact ex_python_table. Qed.

(** Rust can read an error that foreign code may throw, also if only its message is sent; others that are sent
    so panic when read, *)
Theorem C72_errors_read : errors_readable.
Proof. exact errors_readable_proof. Qed.
Print Assumptions C72_errors_read.
Example C72_errors_read_case : sent_flat (Group_Model.g_items catches) oops /\ thrown_to_rust (Group_Model.g_items catches) oops /\
  from_udl catches (api_of catches).
Proof. exact (conj catches_flat (conj catches_thrown catches_udl)). Qed.
(** as a function finds that takes one. *)
Theorem C72_error_argument_refuted : ~ arguments_readable.
Proof. exact argument_unreadable. Qed.
Print Assumptions C72_error_argument_refuted.
