(** C70: every exported item is read from a library file, once, and nothing else is. *)
From Verif Require Import Sym_Spec Sym_Proofs Sym_Lost Sym_Examples.

(** The symbols looked at are those with the name of metadata. *)
Theorem C70_names : forall n, is_metadata_symbol n = true <-> metadata_name n.
Proof. exact is_metadata. Qed.
Print Assumptions C70_names.

(** All the items of a file are read, and no others: files of one architecture, as linkers write them,
    with Mach-O sections in the order of their addresses. *)
Theorem C70_all_partial : forall o, sound o -> one_item_each o ->
  exists pairs, extract o = Items (map snd pairs) /\ complete_for o pairs.
Proof. exact all_found. Qed.
Print Assumptions C70_all_partial.
Example C70_all_case : sound lib_archive /\ one_item_each lib_archive /\ extract lib_archive = Items [7; 8; 9]%nat.
Proof. split; [exact archive_is_sound |]. split; [exact archive_one | exact archive_lists]. Qed.

(** Each once, when no two members of an archive have a symbol in common. *)
Theorem C70_once_partial : forall o, sound o -> one_item_each o -> unshared o ->
  exists pairs, extract o = Items (map snd pairs) /\ NoDup (map fst pairs) /\ complete_for o pairs.
Proof. exact each_once_deep. Qed.
Print Assumptions C70_once_partial.
Example C70_once_case : sound lib_mach /\ one_item_each lib_mach /\ unshared lib_mach /\ extract lib_mach = Items [7; 9]%nat.
Proof. split; [exact mach_is_sound |]. split; [exact mach_one |]. split; [constructor; exact I | exact mach_lists]. Qed.
Example C70_once_archive : sound lib_archive /\ one_item_each lib_archive /\ unshared lib_archive.
Proof. split; [exact archive_is_sound |]. split; [exact archive_one | exact archive_unshared]. Qed.

(** Whatever the file, what is read from an ELF, PE or COFF file is what it holds. *)
Theorem C70_elf_only : forall f e l it, extract (OElf f e) = Items l -> In it l -> exists n, holds (OElf f e) n it.
Proof. exact elf_nothing_else. Qed.
Print Assumptions C70_elf_only.
Example C70_elf_case : extract lib_elf = Items [7; 8]%nat.
Proof. exact elf_lists. Qed.
Theorem C70_pe_only : forall f xs l it, extract (OPe f xs) = Items l -> In it l -> exists n, holds (OPe f xs) n it.
Proof. exact pe_nothing_else. Qed.
Print Assumptions C70_pe_only.
Example C70_pe_case : extract (OPe data pe_ok) = Items [7%nat].
Proof. exact pe_lists. Qed.
Theorem C70_coff_only : forall f c l it, extract (OCoff f c) = Items l -> In it l -> exists n, holds (OCoff f c) n it.
Proof. exact coff_nothing_else. Qed.
Print Assumptions C70_coff_only.
Example C70_coff_case : extract (OCoff data coff_ok) = Items [7%nat].
Proof. exact coff_lists. Qed.

(** When reading succeeds nothing was passed over: every symbol with the name of metadata gave an item, every
    member that the index says has some was read, and no file has an unknown format. *)
Theorem C70_elf_lost : forall f e l s n, extract (OElf f e) = Items l -> In s (e_syms e) -> es_name s = Some n -> metadata_name n ->
  exists it, holds (OElf f e) n it /\ In it l.
Proof. exact elf_none_lost. Qed.
Print Assumptions C70_elf_lost.
Theorem C70_pe_lost : forall f xs l x n, extract (OPe f xs) = Items l -> In x xs -> pe_name x = Some n -> metadata_name n ->
  exists it, holds (OPe f xs) n it /\ In it l.
Proof. exact pe_none_lost. Qed.
Print Assumptions C70_pe_lost.
Theorem C70_coff_lost : forall f c l ss s n, extract (OCoff f c) = Items l -> c_strings c = true -> c_symbols c = Some ss -> In s ss ->
  1 <= cs_section s -> cs_name s = Some n -> metadata_name n -> exists it, holds (OCoff f c) n it /\ In it l.
Proof. exact coff_none_lost. Qed.
Print Assumptions C70_coff_lost.
Theorem C70_member_lost : forall index members l m syms n, extract (OArchive index members) = Items l ->
  In (m, syms) index -> In n syms -> metadata_name n ->
  exists o part, In (m, o) members /\ extract o = Items part /\ incl part l.
Proof. exact members_read. Qed.
Print Assumptions C70_member_lost.
Theorem C70_known : forall o l, extract o = Items l -> known o.
Proof. exact only_known. Qed.
Print Assumptions C70_known.
Example C70_lost_case : extract lib_elf = Items [7; 8]%nat /\ extract lib_archive = Items [7; 8; 9]%nat.
Proof. split; [exact elf_lists | exact archive_lists]. Qed.

(** A stripped ELF library, with its exported symbols in the dynamic table, gives nothing. *)
Theorem C70_stripped_refuted : ~ (forall f e n s sh it, In s (e_dynsyms e) -> es_name s = Some n -> metadata_name n ->
  0 <= es_index s < xindex -> nth_error (e_sections e) (Z.to_nat (es_index s)) = Some sh ->
  data_at f (sh_offset sh + (es_value s - sh_addr sh)) it -> exists l, extract (OElf f e) = Items l /\ In it l).
Proof. exact stripped_lost. Qed.
Print Assumptions C70_stripped_refuted.

(** Mach-O sections that do not come by address: another place is read. *)
Theorem C70_order_refuted : ~ (forall f m n it, mach_sound f m -> holds (OMach f m) n it ->
  exists l, extract (OMach f m) = Items l /\ In it l).
Proof. exact order_matters. Qed.
Print Assumptions C70_order_refuted.
Theorem C70_mach_only_refuted : ~ (forall f m l it, extract (OMach f m) = Items l -> In it l -> exists n, holds (OMach f m) n it).
Proof. exact mach_something_else. Qed.
Print Assumptions C70_mach_only_refuted.

(** Two members of an archive with one name: items are lost. *)
Theorem C70_members_refuted : ~ (forall index members l n it, extract (OArchive index members) = Items l ->
  (forall m o, In (m, o) members -> sound o) ->
  (forall m o n it, In (m, o) members -> holds o n it -> exists syms, In (m, syms) index /\ In n syms) ->
  holds (OArchive index members) n it -> In it l).
Proof. exact members_lost. Qed.
Print Assumptions C70_members_refuted.

(** One symbol in two members of an archive: the item is there twice. *)
Theorem C70_twice_refuted : ~ (forall o, sound o -> one_item_each o ->
  exists pairs, extract o = Items (map snd pairs) /\ NoDup (map fst pairs) /\ complete_for o pairs).
Proof. exact read_twice. Qed.
Print Assumptions C70_twice_refuted.

(** A static of the user's whose name begins like metadata makes everything fail. *)
Theorem C70_namesake_refuted : ~ (forall f e, (exists n it, holds (OElf f e) n it) ->
  (forall s, In s (e_syms e) -> es_name s = Some "UNIFFI_METABOLISM"%string
     \/ exists n it, es_name s = Some n /\ holds (OElf f e) n it) -> extract (OElf f e) <> Failed).
Proof. exact namesake_breaks. Qed.
Print Assumptions C70_namesake_refuted.

(** So does a symbol that is only referred to, which has no section. *)
Theorem C70_reference_refuted : ~ (forall f e, (forall s, In s (e_syms e) -> es_index s = 0 /\ es_value s = 0) ->
  extract (OElf f e) = Items []).
Proof. exact reference_breaks. Qed.
Print Assumptions C70_reference_refuted.

(** Damaged files are not refused with an error. *)
Theorem C70_damaged_refuted : ~ (forall o, extract o <> Panicked).
Proof. exact damaged_panics. Qed.
Print Assumptions C70_damaged_refuted.

(** Of a file with several architectures only the first is read. *)
Theorem C70_fat_refuted : ~ (forall arches n it l, (forall a, In a arches -> sound a) -> holds (OFat arches) n it ->
  extract (OFat arches) = Items l -> In it l).
Proof. exact fat_lost. Qed.
Print Assumptions C70_fat_refuted.

(** A COFF symbol that has nothing to do with metadata makes everything fail. *)
Theorem C70_unrelated_refuted : ~ (forall f c,
  (forall ss s n, c_symbols c = Some ss -> In s ss -> cs_name s = Some n -> metadata_name n -> exists it, holds (OCoff f c) n it) ->
  extract (OCoff f c) <> Failed).
Proof. exact unrelated_breaks. Qed.
Print Assumptions C70_unrelated_refuted.
