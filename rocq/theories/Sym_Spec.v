(** What a library file holds. *)
From Verif Require Export Sym_Model.

(** The name of an exported item: [UNIFFI_META], on Darwin after an underscore. *)
Definition metadata_name (n : string) : Prop :=
  exists rest, n = ("UNIFFI_META" ++ rest)%string \/ n = ("_UNIFFI_META" ++ rest)%string.

(** Data at a position, within the file. *)
Definition data_at (f : bytes) (pos : Z) (it : item) : Prop := 0 <= pos <= size f /\ item_at f pos = Some it.

(** Where the formats say that the data of a symbol is.  ELF: the section whose index the symbol has (or
    the table of large indexes), at the distance of the value from the section's address. *)
Definition elf_holds (f : bytes) (e : elf) (n : string) (it : item) : Prop :=
  exists i s k sh, nth_error (e_syms e) i = Some s /\ es_name s = Some n /\ metadata_name n
    /\ (es_index s <> xindex /\ k = es_index s
        \/ es_index s = xindex /\ exists t, find sh_is_shndx (e_sections e) = Some t /\ word_at e (sh_offset t + Z.of_nat i * 4) = Some k)
    /\ 0 <= k /\ nth_error (e_sections e) (Z.to_nat k) = Some sh /\ sh_addr sh <= es_value s
    /\ data_at f (sh_offset sh + (es_value s - sh_addr sh)) it.
Definition pe_holds (f : bytes) (xs : list pe_export) (n : string) (it : item) : Prop :=
  exists off, In (PeExport (Some n) (Some off)) xs /\ metadata_name n /\ data_at f off it.
(** Mach-O: sections are counted from 1 in the order of the load commands. *)
Definition mach_holds (f : bytes) (m : macho) (n : string) (it : item) : Prop :=
  metadata_name n /\
  ((exists s sec, In s (m_symbols m) /\ mn_name s = n /\ mn_global s = true /\ mn_in_section s = true /\ 1 <= mn_sect s
      /\ nth_error (m_sections m) (Z.to_nat (mn_sect s - 1)) = Some sec
      /\ data_at f (ms_offset sec + (mn_value s - ms_addr sec)) it)
   \/ exists off, In (n, off) (m_exports m) /\ data_at f off it).
Definition coff_holds (f : bytes) (c : coff) (n : string) (it : item) : Prop :=
  metadata_name n /\ c_strings c = true /\ exists ss s raw, c_symbols c = Some ss /\ In s ss /\ cs_name s = Some n /\ 1 <= cs_section s
    /\ nth_error (c_raw c) (Z.to_nat (cs_section s - 1)) = Some raw /\ data_at f (raw + cs_value s) it.
Inductive holds : object -> string -> item -> Prop :=
  | holds_elf f e n it : elf_holds f e n it -> holds (OElf f e) n it
  | holds_pe f xs n it : pe_holds f xs n it -> holds (OPe f xs) n it
  | holds_mach f m n it : mach_holds f m n it -> holds (OMach f m) n it
  | holds_coff f c n it : coff_holds f c n it -> holds (OCoff f c) n it
  | holds_fat arches a n it : In a arches -> holds a n it -> holds (OFat arches) n it
  | holds_archive index members m o n it : In (m, o) members -> holds o n it -> holds (OArchive index members) n it.

(** A file as linkers write it: every symbol with such a name is a piece of metadata. *)
Definition elf_sound (f : bytes) (e : elf) : Prop :=
  (forall s, In s (e_syms e) -> es_name s <> None)
  /\ forall i s n, nth_error (e_syms e) i = Some s -> es_name s = Some n -> metadata_name n ->
     exists k sh it,
       (es_index s <> xindex /\ k = es_index s
        \/ es_index s = xindex /\ exists t, find sh_is_shndx (e_sections e) = Some t /\ word_at e (sh_offset t + Z.of_nat i * 4) = Some k)
       /\ 0 <= k /\ nth_error (e_sections e) (Z.to_nat k) = Some sh /\ sh_addr sh <= es_value s
       /\ data_at f (sh_offset sh + (es_value s - sh_addr sh)) it.
Definition pe_sound (f : bytes) (xs : list pe_export) : Prop :=
  forall x n, In x xs -> pe_name x = Some n -> metadata_name n -> exists off it, pe_offset x = Some off /\ data_at f off it.
Definition mach_sound (f : bytes) (m : macho) : Prop :=
  (forall s, In s (m_symbols m) -> mn_global s = true -> mn_in_section s = true -> metadata_name (mn_name s) ->
     1 <= mn_sect s /\ exists sec it, nth_error (m_sections m) (Z.to_nat (mn_sect s - 1)) = Some sec
       /\ data_at f (ms_offset sec + (mn_value s - ms_addr sec)) it)
  /\ (forall n off, In (n, off) (m_exports m) -> metadata_name n -> exists it, data_at f off it).
(** The load commands come in the order of their addresses. *)
Definition in_address_order (m : macho) : Prop :=
  forall i j a b, (i < j)%nat -> nth_error (m_sections m) i = Some a -> nth_error (m_sections m) j = Some b -> ms_addr a <= ms_addr b.
Definition coff_sound (f : bytes) (c : coff) : Prop :=
  forall ss s n, c_symbols c = Some ss -> c_strings c = true -> In s ss -> 1 <= cs_section s -> cs_name s = Some n ->
    exists raw, nth_error (c_raw c) (Z.to_nat (cs_section s - 1)) = Some raw
      /\ (metadata_name n -> exists it, data_at f (raw + cs_value s) it).
(** One architecture; members of archives with names of their own, and an index that has their symbols. *)
Inductive sound : object -> Prop :=
  | sound_elf f e : elf_sound f e -> sound (OElf f e)
  | sound_pe f xs : pe_sound f xs -> sound (OPe f xs)
  | sound_mach f m : mach_sound f m -> in_address_order m -> sound (OMach f m)
  | sound_coff f c : coff_sound f c -> sound (OCoff f c)
  | sound_fat a : sound a -> sound (OFat [a])
  | sound_archive index members : NoDup (map fst members) ->
      (forall m o n it, In (m, o) members -> holds o n it -> exists syms, In (m, syms) index /\ In n syms) ->
      (forall m syms, In (m, syms) index -> (exists n, In n syms /\ metadata_name n) -> In m (map fst members)) ->
      (forall m o, In (m, o) members -> sound o) ->
      sound (OArchive index members).
(** A symbol stands for one item. *)
Definition one_item_each (o : object) : Prop := forall n a b, holds o n a -> holds o n b -> a = b.
(** A file that is not made of other files. *)
Definition single (o : object) : Prop := match o with OElf _ _ | OPe _ _ | OMach _ _ | OCoff _ _ => True | _ => False end.
(** What a list of symbols and their items says of a file: it has everything the file holds, and no more. *)
Definition complete_for (o : object) (pairs : list (string * item)) : Prop := forall n it, In (n, it) pairs <-> holds o n it.
(** No symbol in two members of an archive, at any depth. *)
Inductive unshared : object -> Prop :=
  | unshared_single o : single o -> unshared o
  | unshared_fat a : unshared a -> unshared (OFat [a])
  | unshared_archive index members :
      (forall m o m' o' n it it', In (m, o) members -> In (m', o') members -> holds o n it -> holds o' n it' -> m = m') ->
      (forall m o, In (m, o) members -> unshared o) -> unshared (OArchive index members).
(** A file that is read, at any depth, has a format that is known. *)
Inductive known : object -> Prop :=
  | known_elf f e : known (OElf f e)
  | known_pe f xs : known (OPe f xs)
  | known_mach f m : known (OMach f m)
  | known_coff f c : known (OCoff f c)
  | known_fat a l : known a -> known (OFat (a :: l))
  | known_archive index members : (forall m syms n, In (m, syms) index -> In n syms -> metadata_name n -> exists o, In (m, o) members /\ known o) ->
      known (OArchive index members).
