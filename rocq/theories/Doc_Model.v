(** Documentation texts, from UDL or Rust to the bindings. *)
From Verif Require Import Base Meta_Types Lit_Spec Doc_Spec.

(** * The library functions used *)

(** Rust's [char::is_whitespace] for ASCII ([is_ws]); simplification: other white space is taken for
    text. *)

(** [str::split_terminator('\n')] *)
Fixpoint drop_last_empty (ls : list bytes) : list bytes :=
  match ls with
  | [] => []
  | [l] => match l with [] => [] | _ => [l] end
  | l :: r => l :: drop_last_empty r
  end.
Definition split_terminator (s : bytes) : list bytes := drop_last_empty (split_lines s).
(** [str::lines]: a carriage return is part of the line end before a line feed only. *)
Definition strip_cr (l : bytes) : bytes :=
  match strip_end [x0d] l with Some r => r | None => l end.
Fixpoint chomp (ls : list bytes) : list bytes :=
  match ls with
  | [] => []
  | [l] => [l]
  | l :: r => strip_cr l :: chomp r
  end.
Definition lines (s : bytes) : list bytes := drop_last_empty (chomp (split_lines s)).
Definition ends_with_lf (s : bytes) : bool :=
  match rev s with c :: _ => byte_eqb c LF | [] => false end.
(** [str::replace]: from left to right; [skip] is what is left of a match. *)
Fixpoint replace_ (pat rep : bytes) (skip : nat) (s : bytes) : bytes :=
  match s with
  | [] => []
  | c :: r =>
      match skip with
      | S k => replace_ pat rep k r
      | O => match strip pat s with
             | Some _ => rep ++ replace_ pat rep (length pat - 1) r
             | None => c :: replace_ pat rep 0 r
             end
      end
  end.
Definition replace (pat rep s : bytes) : bytes := replace_ pat rep 0 s.
Definition trim_end (s : bytes) : bytes := rev (drop_ws (rev s)).
Definition trim (s : bytes) : bytes := trim_end (drop_ws s).

(** textwrap 0.16 (Cargo.lock), src/indentation.rs [indent]: blank lines get the prefix without its
    trailing white space. *)
Definition indent (p s : bytes) : bytes :=
  join (map (fun l => (if blank l then trim_end p else p) ++ l) (split_terminator s)) ++
  (if ends_with_lf s then [LF] else []).

(** textwrap 0.16, src/indentation.rs [dedent]: the white space before the first line that is not
    blank ([None] for a blank line), ... *)
Fixpoint leading_ws (l : bytes) : option bytes :=
  match l with
  | [] => None
  | c :: r => if is_ws c then option_map (cons c) (leading_ws r) else Some []
  end.
Fixpoint find_prefix (ls : list bytes) : bytes * list bytes :=
  match ls with
  | [] => ([], [])
  | l :: r => match leading_ws l with Some p => (p, r) | None => find_prefix r end
  end.
(** ... shortened where another line differs from it, ... *)
Fixpoint mismatch (l p : bytes) : option bytes :=
  match l, p with
  | a :: l', b :: p' => if byte_eqb a b then option_map (cons a) (mismatch l' p') else Some []
  | _, _ => None
  end.
Definition shorten (p l : bytes) : bytes := match mismatch l p with Some q => q | None => p end.
(** ... is cut from the lines that have it and are not blank; of the other lines nothing is left. *)
Definition cut (p l : bytes) : bytes :=
  match strip p l with Some t => if blank l then [] else t | None => [] end.
Definition dedent (s : bytes) : bytes :=
  let ls := lines s in
  let (p0, r) := find_prefix ls in
  let p := fold_left shorten r p0 in
  let out := flat_map (fun l => cut p l ++ [LF]) ls in
  if ends_with_lf out && negb (ends_with_lf s) then removelast out else out.

(** * Where the texts come from *)

(** weedle2/src/common.rs l.36-46 [docstring], after nom's [multispace0]: one line of it, ... *)
Definition nom_ws (c : byte) : bool := existsb (byte_eqb c) [x20; x09; x0a; x0d].
Fixpoint multispace0 (s : bytes) : bytes :=
  match s with [] => [] | c :: r => if nom_ws c then multispace0 r else s end.
Fixpoint take_until_lf (s : bytes) : option (bytes * bytes) :=
  match s with
  | [] => None
  | c :: r =>
      if byte_eqb c LF then Some ([], r)
      else match take_until_lf r with Some (l, t) => Some (c :: l, t) | None => None end
  end.
Definition doc_line (s : bytes) : option (bytes * bytes) :=
  match strip (S_ "///") (multispace0 s) with Some r => take_until_lf r | None => None end.
(** ... and as many as there are ([many1]; each takes at least four bytes, which bounds [fuel]). *)
Fixpoint doc_lines (fuel : nat) (s : bytes) : list bytes * bytes :=
  match fuel with
  | O => ([], s)
  | S f =>
      match doc_line s with
      | Some (l, r) => let (ls, t) := doc_lines f r in (l :: ls, t)
      | None => ([], s)
      end
  end.
Definition weedle_docstring (s : bytes) : option (bytes * bytes) :=
  match doc_lines (length s) s with
  | ([], _) => None
  | (ls, t) => Some (join ls, t)
  end.
(** uniffi_udl/src/converters/mod.rs l.33-36 [convert_docstring]. *)
Definition convert_docstring (s : bytes) : bytes := dedent s.

(** uniffi_macros/src/util.rs l.306-326 [extract_docstring]: the values of the [doc] attributes (a
    line [/// text] of Rust is one with the value [" text"]). *)
Definition extract_docstring (attrs : list bytes) : bytes := join (map trim attrs).

(** * Where they go *)

(** uniffi_bindgen/src/bindings/kotlin/gen_kotlin/mod.rs l.1054-1067 [docstring]. *)
Definition kt_escape_doc (s : bytes) : bytes :=
  replace [x2f; x2a] [x2f; x5c; x2a] (replace [x2a; x2f] [x2a; x5c; x2f] s).
Definition kt_doc (n : nat) (doc : bytes) : bytes :=
  indent (spaces n)
    (S_ "/**" ++ [LF] ++ indent (S_ " * ") (dedent (kt_escape_doc doc)) ++ [LF] ++ S_ " */").
(** uniffi_bindgen/src/bindings/swift/gen_swift/mod.rs l.1184-1197 [docstring]. *)
Definition sw_escape_doc (s : bytes) : bytes :=
  replace [x2f; x2a] [x2f; x5c; x2a] (replace [x2a; x2f] [x2a; x5c; x2f] s).
Definition sw_doc (n : nat) (doc : bytes) : bytes :=
  indent (spaces n)
    (S_ "/**" ++ [LF] ++ indent (S_ " * ") (dedent (sw_escape_doc doc)) ++ [LF] ++ S_ " */").
(** uniffi_bindgen/src/bindings/python/filters.rs l.22-38 [docstring]. *)
Definition py_escape_doc (s : bytes) : bytes :=
  replace quotes [x5c; x22; x5c; x22; x5c; x22] s.
Definition py_doc (n : nat) (doc : option bytes) : bytes :=
  match doc with
  | None => []
  | Some d =>
      quotes ++ [LF] ++ indent (spaces n) (py_escape_doc (dedent d)) ++ [LF] ++ quotes ++ [LF] ++ spaces n
  end.
