(** C75: the text of UDL files. *)
From Verif Require Import Weed_Model Weed_Spec Weed_Main Weed_Sound Weed_Commas Weed_Refute Weed_Examples.

(** A file is read as the definitions that it spells, whatever blanks and comments stand between the tokens. Partial:
    the forms that UniFFI refuses later are not modelled, and a comment in the form [//] needs its end of line, see below. *)
Theorem C75_reads_partial : forall l s w w', Forall def_ok l -> l <> [] -> spells (udl_tokens l) s -> edges s -> Forall white w -> Forall white w' ->
  read_udl (w ++ s ++ w') = Parsed l.
Proof. exact read_file. Qed.
Print Assumptions C75_reads_partial.

Example C75_reads_case : sample <> [] /\ Forall def_ok sample /\ spells (udl_tokens sample) sample_text /\ edges sample_text
  /\ read_udl (tx " " ++ sample_text ++ tx nl) = Parsed sample.
Proof. exact sample_read. Qed.

(** The same holds when commas follow the last variants of some of the enums. *)
Theorem C75_trailing_commas_partial : forall l tss s w w', Forall def_ok l -> l <> [] -> Forall2 written l tss -> spells (List.concat tss) s -> edges s ->
  Forall white w -> Forall white w' -> read_udl (w ++ s ++ w') = Parsed l.
Proof. exact read_written. Qed.
Print Assumptions C75_trailing_commas_partial.

Example C75_trailing_commas_case : Forall def_ok [pair_enum] /\ (exists tss, Forall2 written [pair_enum] tss /\ spells (List.concat tss) comma_text)
  /\ edges comma_text /\ read_udl comma_text = Parsed [pair_enum].
Proof. exact comma_case. Qed.

(** Whatever the text, what is read has names and types of the grammar, strings without quotes, values for optional arguments
    only, functions without special words in namespaces, and a variant in each enum. *)
Theorem C75_shapes : forall s l, read_udl s = Parsed l -> Forall def_read l.
Proof. exact read_sound. Qed.
Print Assumptions C75_shapes.

Example C75_shapes_case : exists s, read_udl s = Parsed sample.
Proof. exists (tx " " ++ sample_text ++ tx nl). exact (proj2 (proj2 (proj2 (proj2 sample_read)))). Qed.

(** The same text does not spell two documents. *)
Theorem C75_one_meaning : forall l l' s, Forall def_ok l -> Forall def_ok l' -> spells (udl_tokens l) s -> spells (udl_tokens l') s -> l = l'.
Proof. exact one_document. Qed.
Print Assumptions C75_one_meaning.

Example C75_one_meaning_case : Forall def_ok sample /\ spells (udl_tokens sample) sample_text.
Proof. exact (conj sample_ok sample_spelt). Qed.

(** No text makes the reader panic. Partial: running out of stack in deeply nested types is not modelled. *)
Theorem C75_no_panic_partial : forall s, read_udl s <> Panic.
Proof. exact no_panic. Qed.
Print Assumptions C75_no_panic_partial.

(** A comment in the form [//] on the last line makes any file be refused, even when its line ends. *)
Theorem C75_last_comment_refuted : forall l s c, Forall def_ok l -> spells (udl_tokens l) s -> (exists x u, s = x :: u /\ edge x) ->
  ~ In newline c -> (forall c', c <> "/"%char :: c') -> read_udl (s ++ tx "//" ++ c ++ [newline]) = ParseError.
Proof. exact last_comment. Qed.
Print Assumptions C75_last_comment_refuted.

Example C75_last_comment_case : read_udl (sample_text ++ tx "// end" ++ [newline]) = ParseError /\ read_udl (sample_text ++ tx "/* end */") = Parsed sample.
Proof. exact sample_comment. Qed.

(** Comments before documentation make any file that starts with them be refused. *)
Theorem C75_first_comment_refuted : forall x b r, blank (x :: b) -> edge x -> read_udl ((x :: b) ++ tx "///" ++ r) = ParseError.
Proof. exact first_comment. Qed.
Print Assumptions C75_first_comment_refuted.

Example C75_first_comment_case : blank (tx ("// License" ++ nl)) /\ read_udl (tx ("// License" ++ nl) ++ sample_text) = ParseError
  /\ read_udl (tx ("// License" ++ nl ++ "namespace a {};")) = Parsed [DNamespace None None (tx "a") []].
Proof. exact sample_first. Qed.

(** A comment between two lines of documentation is refused, though one after them is not. *)
Theorem C75_comment_between_docs_refuted :
  read_udl (tx ("/// one" ++ nl ++ "/// two" ++ nl ++ "namespace a {};")) = Parsed [DNamespace (Some (tx " one" ++ newline :: tx " two")) None (tx "a") []]
  /\ read_udl (tx ("/// one" ++ nl ++ "// note" ++ nl ++ "/// two" ++ nl ++ "namespace a {};")) = ParseError
  /\ read_udl (tx ("/// one" ++ nl ++ "// note" ++ nl ++ "namespace a {};")) = Parsed [DNamespace (Some (tx " one")) None (tx "a") []].
Proof. exact comment_between_docs. Qed.
Print Assumptions C75_comment_between_docs_refuted.

(** Documentation is no comment: where none is expected the file is refused, and lines of slashes are documentation. *)
Theorem C75_docs_anywhere_refuted :
  read_udl (ns ("undefined f(/* x */ u8 a);")) = Parsed [DNamespace None None (tx "a") [Operation None None [] None (Some (tx "f")) [Arg None false None (TIdent (tx "u8") false) (tx "a") None]]]
  /\ read_udl (ns ("undefined f(/// x" ++ nl ++ "u8 a);")) = ParseError
  /\ read_udl (ns ("[A]/// x" ++ nl ++ "undefined f();")) = ParseError
  /\ read_udl (ns ("undefined f();/// x" ++ nl)) = ParseError
  /\ read_udl (ns ("//// ----" ++ nl ++ "undefined f();")) = Parsed [DNamespace None None (tx "a") [Operation (Some (tx "/ ----")) None [] None (Some (tx "f")) []]].
Proof. exact docs_elsewhere. Qed.
Print Assumptions C75_docs_anywhere_refuted.

(** Names are not kept as they are written: an underscore before them is lost, two are refused, and names that no
    language accepts are read. *)
Theorem C75_names_kept_refuted : read_udl (ns "undefined _f();") = op "f" /\ read_udl (ns "undefined f();") = op "f" /\ read_udl (ns "undefined __f();") = ParseError
  /\ read_udl (ns "undefined 2f();") = op "2f" /\ read_udl (ns "undefined f-g();") = op "f-g".
Proof. exact names_read. Qed.
Print Assumptions C75_names_kept_refuted.

(** A number without digits is read. *)
Theorem C75_numbers_refuted : read_udl (dict "0x") = with_default (VHex (tx "0x")) /\ read_udl (dict "09") = ParseError /\ read_udl (dict "+1") = ParseError
  /\ read_udl (dict "017") = with_default (VOct (tx "017")).
Proof. exact numbers_read. Qed.
Print Assumptions C75_numbers_refuted.

(** No string with a quote in it can be written. *)
Theorem C75_strings_refuted : read_udl (tx ("dictionary D { T x = ""a" ++ String (ascii_of_nat 92) """b""; };")) = ParseError
  /\ read_udl (tx ("dictionary D { T x = ""a" ++ nl ++ "b""; };")) = with_default (VString (tx ("a" ++ nl ++ "b"))).
Proof. exact strings_read. Qed.
Print Assumptions C75_strings_refuted.

(** The carriage returns of files from Windows are part of the documentation. *)
Theorem C75_line_ends_refuted : read_udl (tx "/// one" ++ [cr; newline] ++ tx "namespace a {};") = Parsed [DNamespace (Some (tx " one" ++ [cr])) None (tx "a") []].
Proof. exact returns_kept. Qed.
Print Assumptions C75_line_ends_refuted.
