(** C54: documentation reaches the bindings. *)
From Verif Require Import Base Meta_Types Lit_Spec Lit_Text_Proofs Doc_Spec Doc_Model Doc_Proofs Doc_Python_Proofs Doc_Refute.

(** Whatever the text, the comment in Kotlin and Swift ends where it should. *)
Theorem C54_kotlin_comment : forall n doc rest, exists body,
  kt_doc n doc = spaces n ++ body /\ after_comment (body ++ rest) = Some rest.
Proof. exact kt_safe. Qed.
Print Assumptions C54_kotlin_comment.
Theorem C54_swift_comment : forall n doc rest, exists body,
  sw_doc n doc = spaces n ++ body /\ after_comment (body ++ rest) = Some rest.
Proof. exact kt_safe. Qed.
Print Assumptions C54_swift_comment.
(** So does the string in Python. *)
Theorem C54_python_string : forall n doc rest, exists body,
  py_doc n (Some doc) ++ rest = quotes ++ body /\ after_string body = Some (LF :: spaces n ++ rest).
Proof. exact py_safe. Qed.
Print Assumptions C54_python_string.
(** The lines are there, in order, moved to the left together; stars and slashes next to each other are
    kept apart. *)
Theorem C54_kotlin_text : forall n ls, ls <> [] -> Forall line ls ->
  exists ls', dedented ls ls' /\ comment_lines (kt_doc n (join ls)) = map guarded ls'.
Proof. exact kt_content. Qed.
Print Assumptions C54_kotlin_text.
Theorem C54_swift_text : forall n ls, ls <> [] -> Forall line ls ->
  exists ls', dedented ls ls' /\ comment_lines (sw_doc n (join ls)) = map guarded ls'.
Proof. exact kt_content. Qed.
Print Assumptions C54_swift_text.
(** In Python, if there is no backslash. *)
Theorem C54_python_text_partial : forall n ls rest, ls <> [] -> Forall line ls ->
  Forall (Forall (fun c => c <> x5c /\ c <> x00)) ls ->
  exists ls' body, dedented ls ls' /\ py_doc n (Some (join ls)) ++ rest = quotes ++ body /\
    long_string body = Some (LF :: join (map (moved n) ls') ++ [LF], LF :: spaces n ++ rest).
Proof. exact py_content. Qed.
Print Assumptions C54_python_text_partial.
(** UDL: the lines after [///] are taken, all of them and no more, ... *)
Theorem C54_udl_lines : forall wls rest, wls <> [] ->
  Forall (fun wl => forallb udl_ws (fst wl) = true /\ ~ In LF (snd wl)) wls -> no_doc_next rest ->
  weedle_docstring (flat_map (fun wl => udl_line (fst wl) (snd wl)) wls ++ rest) =
    Some (join (map snd wls), rest).
Proof. exact udl_docstring. Qed.
Print Assumptions C54_udl_lines.
(** ... and reach Kotlin and Python. *)
Theorem C54_udl_to_kotlin : forall n ls, ls <> [] -> Forall line ls ->
  exists ls', dedented ls ls' /\ comment_lines (kt_doc n (convert_docstring (join ls))) = map guarded ls'.
Proof. exact udl_to_kotlin. Qed.
Print Assumptions C54_udl_to_kotlin.
Theorem C54_udl_to_python_partial : forall n ls rest, ls <> [] -> Forall line ls ->
  Forall (Forall (fun c => c <> x5c /\ c <> x00)) ls ->
  exists ls' body, dedented ls ls' /\ py_doc n (Some (convert_docstring (join ls))) ++ rest = quotes ++ body /\
    long_string body = Some (LF :: join (map (moved n) ls') ++ [LF], LF :: spaces n ++ rest).
Proof. exact udl_to_python. Qed.
Print Assumptions C54_udl_to_python_partial.
(** Rust: lines [/// text] without further white space at the ends of the text. *)
Theorem C54_rust_lines_partial : forall ls, Forall tight ls ->
  extract_docstring (map (cons x20) ls) = join ls.
Proof. exact rust_docstring. Qed.
Print Assumptions C54_rust_lines_partial.

(** What goes wrong: backslashes in Python, ... *)
Theorem C54_python_error_refuted : exists l, line l /\
  exists body, py_doc 4 (Some (join [l])) = quotes ++ body /\ long_string body = None.
Proof. exact (ex_intro _ bad_escape (conj (Forall_inv (proj1 python_error)) (proj2 python_error))). Qed.
Print Assumptions C54_python_error_refuted.
Theorem C54_python_backslash_refuted : Forall line [new_line] /\
  exists body v rest, py_doc 0 (Some (join [new_line])) = quotes ++ body /\
    long_string body = Some (v, rest) /\ v = LF :: S_ "ends with " ++ [LF; LF].
Proof. exact python_other. Qed.
Print Assumptions C54_python_backslash_refuted.
(** ... the indentation of lines in Rust. *)
Theorem C54_rust_indentation_refuted : Forall line nested /\
  extract_docstring (map (cons x20) nested) = join [S_ "- a"; S_ "- b"] /\
  ~ dedented nested [S_ "- a"; S_ "- b"].
Proof. exact rust_indentation. Qed.
Print Assumptions C54_rust_indentation_refuted.
