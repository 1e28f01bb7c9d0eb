(** Finding the metadata in a library file: uniffi_bindgen/src/macro_metadata/extract.rs. *)
From Coq Require Export Ascii String List Bool Arith ZArith Lia.
Export ListNotations.
Open Scope string_scope.
Open Scope list_scope.
Open Scope Z_scope.

(** What extraction gives: the items, an error, or a panic. *)
Definition item := nat.
Inductive outcome := Items (l : list item) | Failed | Panicked.

(** The bytes of a file: their number, and what [Metadata::read] makes of the bytes from a position on
    ([None]: an error; an item tells where it ends, see the theorems on metadata). *)
Record bytes := Bytes { size : Z; item_at : Z -> option item }.

(** l.281-285 [is_metadata_symbol]. *)
Definition strip_underscore (s : string) : string := match s with String "_" s => s | _ => s end.
Definition is_metadata_symbol (name : string) : bool := prefix "UNIFFI_META" (strip_underscore name).

(** * [ExtractedItems], l.233-279 *)
Record extracted := Extracted { x_items : list item; x_names : list string }.
Definition empty : extracted := Extracted [] [].
Definition mem (n : string) (l : list string) : bool := existsb (String.eqb n) l.
(** What a symbol comes to: it is passed over, it is an error, it makes the program panic, or its data is
    at a position. *)
Inductive place := Skip | Bad | Panics | At (name : string) (offset : Z).
Inductive progress := Going (x : extracted) | Stopped | Crashed.
(** l.248-274 [extract_item]; [&file_data[offset..]] panics beyond the end. *)
Definition extract_item (f : bytes) (x : extracted) (name : string) (offset : Z) : progress :=
  if mem name (x_names x) then Going x
  else if (offset <? 0) || (size f <? offset) then Crashed
  else match item_at f offset with
       | Some it => Going (Extracted (x_items x ++ [it]) (name :: x_names x))
       | None => Stopped
       end.
Fixpoint extract_all (f : bytes) (ps : list place) (x : extracted) : progress :=
  match ps with
  | [] => Going x
  | p :: ps =>
      match (match p with Skip => Going x | Bad => Stopped | Panics => Crashed | At n off => extract_item f x n off end) with
      | Going x => extract_all f ps x
      | other => other
      end
  end.
Definition into_metadata (p : progress) : outcome :=
  match p with Going x => Items (x_items x) | Stopped => Failed | Crashed => Panicked end.

(** * ELF, l.39-93 *)
(** A symbol of the table [.symtab]: its name if it can be read, its value and its section index.  The
    symbols of [.dynsym] are there too. *)
Record elf_symbol := ElfSymbol { es_name : option string; es_value : Z; es_index : Z }.
Record elf_section := ElfSection { sh_addr : Z; sh_offset : Z; sh_is_shndx : bool }.
(** [word_at]: [file_data.get(offset..offset + 4)] as a number, in the byte order of the file. *)
Record elf := Elf { e_syms : list elf_symbol; e_dynsyms : list elf_symbol; e_sections : list elf_section; word_at : Z -> option Z }.
Definition xindex : Z := 65535.
Definition nth_z {A} (l : list A) (i : Z) : option A := if i <? 0 then None else nth_error l (Z.to_nat i).
Definition elf_section_index (e : elf) (i : Z) (s : elf_symbol) : option Z :=
  if es_index s =? xindex then
    match find sh_is_shndx (e_sections e) with
    | None => None
    | Some sh => word_at e (sh_offset sh + i * 4)
    end
  else Some (es_index s).
(** A value below the address of its section is a subtraction with overflow: a panic (or a wrapped
    number, and then a panic in most cases, where overflow checks are off). *)
Definition elf_place (e : elf) (i : Z) (s : elf_symbol) : place :=
  match es_name s with
  | None => Bad
  | Some name =>
      if negb (is_metadata_symbol name) then Skip
      else match elf_section_index e i s with
           | None => Bad
           | Some k => match nth_z (e_sections e) k with
                       | None => Bad
                       | Some sh => if es_value s <? sh_addr sh then Panics else At name (sh_offset sh + (es_value s - sh_addr sh))
                       end
           end
  end.
Fixpoint places_from {A} (f : Z -> A -> place) (i : Z) (l : list A) : list place :=
  match l with [] => [] | s :: l => f i s :: places_from f (i + 1) l end.
Definition elf_places (e : elf) : list place := places_from (elf_place e) 0 (e_syms e).

(** * PE, l.95-110 *)
Record pe_export := PeExport { pe_name : option string; pe_offset : option Z }.
Definition pe_place (x : pe_export) : place :=
  match pe_name x with
  | None => Skip
  | Some n => if is_metadata_symbol n then match pe_offset x with Some off => At n off | None => Bad end else Skip
  end.

(** * Mach-O, l.128-164 *)
Record mach_section := MachSection { ms_addr : Z; ms_offset : Z }.
(** A symbol; [global] and of type [N_SECT]: l.143-146.  [symbols().flatten()] leaves out what cannot be read. *)
Record mach_symbol := MachSymbol { mn_name : string; mn_global : bool; mn_in_section : bool; mn_sect : Z; mn_value : Z }.
Record macho := MachO { m_sections : list mach_section; m_symbols : list mach_symbol; m_exports : list (string * Z) }.
(** [sort_by_key(|s| s.addr)], which keeps the order of equal ones. *)
Fixpoint insert_section (s : mach_section) (l : list mach_section) : list mach_section :=
  match l with
  | [] => [s]
  | t :: l => if ms_addr s <=? ms_addr t then s :: t :: l else t :: insert_section s l
  end.
Definition sorted_sections (l : list mach_section) : list mach_section := fold_right insert_section [] l.
Definition mach_symbol_place (m : macho) (s : mach_symbol) : place :=
  if mn_global s && mn_in_section s && is_metadata_symbol (mn_name s) && negb (mn_sect s =? 0) then
    match nth_z (sorted_sections (m_sections m)) (mn_sect s - 1) with
    | None => Panics
    | Some sec => let off := ms_offset sec + mn_value s - ms_addr sec in
                  if off <? 0 then Panics else At (mn_name s) off
    end
  else Skip.
Definition mach_export_place (x : string * Z) : place := if is_metadata_symbol (fst x) then At (fst x) (snd x) else Skip.
Definition mach_places (m : macho) : list place :=
  map (mach_symbol_place m) (m_symbols m) ++ map mach_export_place (m_exports m).

(** * COFF, l.196-231 *)
Record coff_symbol := CoffSymbol { cs_section : Z; cs_name : option string; cs_value : Z }.
Record coff := Coff { c_raw : list Z; c_strings : bool; c_symbols : option (list coff_symbol) }.
Definition coff_place (c : coff) (s : coff_symbol) : place :=
  if cs_section s <=? 0 then Skip
  else match cs_name s with
       | None => Skip
       | Some n => match nth_z (c_raw c) (cs_section s - 1) with
                   | None => Bad
                   | Some raw => if is_metadata_symbol n then At n (raw + cs_value s) else Skip
                   end
       end.
Definition coff_places (c : coff) : list place :=
  match c_strings c, c_symbols c with true, Some ss => map (coff_place c) ss | _, _ => [] end.

(** * Files, l.28-37 *)
(** A file, with the bytes it was parsed from.  An archive: its members by name, and its index, which has
    the symbols of each member. *)
Inductive object :=
  | OElf (f : bytes) (e : elf)
  | OPe (f : bytes) (xs : list pe_export)
  | OMach (f : bytes) (m : macho)
  | OFat (arches : list object)
  | OArchive (index : list (string * list string)) (members : list (string * object))
  | OCoff (f : bytes) (c : coff)
  | OUnknown.
Fixpoint get {A} (k : string) (l : list (string * A)) : option A :=
  match l with [] => None | (n, v) :: l => if String.eqb k n then Some v else get k l end.
(** l.166-194: each name once; the order of a [HashSet] is not modelled.  Of two members with one name,
    [Archive::extract] gives one; here the first. *)
Definition members_to_check (index : list (string * list string)) : list string :=
  nodup string_dec (map fst (filter (fun '(_, syms) => existsb is_metadata_symbol syms) index)).
Definition append (a b : outcome) : outcome :=
  match a, b with
  | Items l, Items m => Items (l ++ m)
  | Items _, other => other
  | other, _ => other
  end.
Fixpoint extract (o : object) : outcome :=
  match o with
  | OElf f e => into_metadata (extract_all f (elf_places e) empty)
  | OPe f xs => into_metadata (extract_all f (map pe_place xs) empty)
  | OMach f m => into_metadata (extract_all f (mach_places m) empty)
  | OFat [] => Panicked
  | OFat (a :: _) => extract a
  | OArchive index members =>
      let results := map (fun '(n, o) => (n, extract o)) members in
      fold_right (fun n rest => append (match get n results with Some r => r | None => Failed end) rest)
        (Items []) (members_to_check index)
  | OCoff f c => into_metadata (extract_all f (coff_places c) empty)
  | OUnknown => Failed
  end.
