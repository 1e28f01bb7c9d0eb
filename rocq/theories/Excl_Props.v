(** Bindings under a configuration (C63). *)
From Verif Require Import Base Meta_Types Excl_Types Excl_Spec Excl_Claims Excl_Proofs Excl_Refute.

(** Kotlin, Swift and Ruby: the bindings show exactly the items that are not left out; where no custom type is. *)
Theorem C63_shown_partial : ci_true (fun c _ items => no_custom c items) (fun c _ items b => shows c items b).
Proof. exact ci_shows_proof. Qed.
Print Assumptions C63_shown_partial.

(** Python: whatever is left out. *)
Theorem C63_python_shown : pl_true any (fun c _ items b => shows c items b).
Proof. exact pl_shows_proof. Qed.
Print Assumptions C63_python_shown.

(** All show the same. *)
Theorem C63_agree_partial : both_same (fun c _ items => no_custom c items).
Proof. exact both_same_proof. Qed.
Print Assumptions C63_agree_partial.

(** Under every configuration, each callable calls the exported function of its own item, and all that is called is
    declared. *)
Theorem C63_calls : ci_true any (fun _ _ _ b => calls b /\ declares b).
Proof. exact ci_calls_proof. Qed.
Print Assumptions C63_calls.

(** So in Python. *)
Theorem C63_python_calls : pl_true (fun _ _ items => eq_whole items) (fun _ _ _ b => calls b /\ declares b).
Proof. exact pl_calls_proof. Qed.
Print Assumptions C63_python_calls.

(** Kotlin, Swift and Ruby: all that is declared is exported by the library, on account of an item that stays; where
    no trait that foreign code implements gets another name. *)
Theorem C63_needs_partial : ci_true (fun c _ items => keeps_traits c items) (fun c _ items b => needs_only c items b).
Proof. exact ci_needs_proof. Qed.
Print Assumptions C63_needs_partial.

(** Python: all that is declared is exported by the library. *)
Theorem C63_python_links : pl_true (fun _ _ items => eq_whole items) (fun _ _ items b => links items b).
Proof. exact pl_links_proof. Qed.
Print Assumptions C63_python_links.

(** Kotlin, Swift and Ruby: the table of a trait has all its methods in their order and goes to the trait's own
    function; where none of them is left out and the trait keeps its name. *)
Theorem C63_tables_partial : ci_true (fun c _ items => keeps_traits c items /\ whole_traits c items) (fun _ _ items b => tables items b).
Proof. exact ci_tables_proof. Qed.
Print Assumptions C63_tables_partial.

(** Python: whatever is left out or renamed. *)
Theorem C63_python_tables : pl_true any (fun _ _ items b => tables items b).
Proof. exact pl_tables_proof. Qed.
Print Assumptions C63_python_tables.

(** All types that the bindings mention are in them; where what is left out is used by nothing that stays, and is in no
    other type. *)
Theorem C63_defined_partial : ci_true (fun c crate items => no_custom c items /\ items_closed crate items /\
                                unused c crate items /\ never_nested c crate items)
          (fun _ crate _ b => closed crate b).
Proof. exact ci_closed_proof. Qed.
Print Assumptions C63_defined_partial.

(** So in Python. *)
Theorem C63_python_defined_partial : pl_true (fun c crate items => items_closed crate items /\ unused c crate items /\ never_nested c crate items)
          (fun _ crate _ b => closed crate b).
Proof. exact pl_closed_proof. Qed.
Print Assumptions C63_python_defined_partial.

(** Custom types that should be left out stay. *)
Theorem C63_custom_refuted : ~ ci_true any (fun c _ items b => shows c items b).
Proof. exact custom_refuted. Qed.
Print Assumptions C63_custom_refuted.

(** A trait with a new name makes the bindings call a function that the library does not export. *)
Theorem C63_renamed_refuted : ~ ci_true any (fun _ _ items b => links items b).
Proof. exact renamed_refuted. Qed.
Print Assumptions C63_renamed_refuted.

(** Its table goes there. *)
Theorem C63_renamed_tables_refuted : ~ ci_true (fun c _ items => whole_traits c items) (fun _ _ items b => tables items b).
Proof. exact renamed_tables_refuted. Qed.
Print Assumptions C63_renamed_tables_refuted.

(** A method left out of a trait is missing in the table, so that Rust finds others in its place. *)
Theorem C63_slots_refuted : ~ ci_true (fun c _ items => keeps_traits c items) (fun _ _ items b => tables items b).
Proof. exact slots_refuted. Qed.
Print Assumptions C63_slots_refuted.

(** Python needs the symbols of what it leaves out. *)
Theorem C63_python_needs_refuted : ~ pl_true any (fun c _ items b => needs_only c items b).
Proof. exact needs_refuted. Qed.
Print Assumptions C63_python_needs_refuted.

(** Types left out are still mentioned by what uses them; *)
Theorem C63_used_refuted : ~ ci_true (fun c crate items => no_custom c items /\ items_closed crate items /\ never_nested c crate items)
            (fun _ crate _ b => closed crate b).
Proof. exact used_refuted. Qed.
Print Assumptions C63_used_refuted.

(** so in Python. *)
Theorem C63_python_used_refuted : ~ pl_true (fun c crate items => items_closed crate items /\ never_nested c crate items)
            (fun _ crate _ b => closed crate b).
Proof. exact python_used_refuted. Qed.
Print Assumptions C63_python_used_refuted.

(** Converters of types that have them in them stay, even when nothing uses them; *)
Theorem C63_nested_refuted : ~ ci_true (fun c crate items => no_custom c items /\ items_closed crate items /\ unused c crate items)
            (fun _ crate _ b => closed crate b).
Proof. exact nested_refuted. Qed.
Print Assumptions C63_nested_refuted.

(** so in Python. *)
Theorem C63_python_nested_refuted : ~ pl_true (fun c crate items => items_closed crate items /\ unused c crate items)
            (fun _ crate _ b => closed crate b).
Proof. exact python_nested_refuted. Qed.
Print Assumptions C63_python_nested_refuted.
