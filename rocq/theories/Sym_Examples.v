(** Files that meet the hypotheses, and files that show what goes wrong. *)
From Verif Require Import Sym_Spec Sym_Proofs.

(** A file of 1000 bytes with items 7, 8 and 9 at 100, 110 and 300. *)
Definition data : bytes := Bytes 1000 (fun z => if z =? 100 then Some 7%nat else if z =? 110 then Some 8%nat else if z =? 300 then Some 9%nat else None).
Lemma at100 : data_at data 100 7%nat. Proof. split; [cbn; lia | reflexivity]. Qed.
Lemma at110 : data_at data 110 8%nat. Proof. split; [cbn; lia | reflexivity]. Qed.
Lemma at300 : data_at data 300 9%nat. Proof. split; [cbn; lia | reflexivity]. Qed.
Lemma named r : metadata_name ("UNIFFI_META" ++ r). Proof. exists r. now left. Qed.
Lemma named_ r : metadata_name ("_UNIFFI_META" ++ r). Proof. exists r. now right. Qed.
Ltac not_named := intros M; apply is_metadata in M; vm_compute in M; discriminate M.
Ltac pick := repeat match goal with H : _ \/ _ |- _ => destruct H as [H | H] | H : False |- _ => destruct H end.

(** * An ELF library with one index in the table of large ones *)
Definition elf_ok : elf :=
  Elf [ElfSymbol (Some "UNIFFI_META_a") 4100 1; ElfSymbol (Some "main") 0 0; ElfSymbol (Some "UNIFFI_META_b") 4110 65535]
      [] [ElfSection 0 0 false; ElfSection 4096 96 false; ElfSection 0 500 true] (fun z => if z =? 508 then Some 1 else None).
Definition lib_elf : object := OElf data elf_ok.
Lemma elf_is_sound : sound lib_elf.
Proof.
  constructor. split.
  - intros s I. cbn in I. pick; subst; discriminate.
  - intros i s n E N M. destruct i as [| [| [| i]]]; cbn in E; [| | | now destruct i]; injection E as <-; cbn in N; injection N as <-.
    + exists 1, (ElfSection 4096 96 false), 7%nat. cbn. split; [left; split; [discriminate | reflexivity] |]. split; [lia |]. split; [reflexivity |]. split; [lia | exact at100].
    + revert M. not_named.
    + exists 1, (ElfSection 4096 96 false), 8%nat. cbn. split; [right; split; [reflexivity |]; exists (ElfSection 0 500 true); split; reflexivity |].
      split; [lia |]. split; [reflexivity |]. split; [lia | exact at110].
Qed.
Lemma elf_lists : extract lib_elf = Items [7; 8]%nat.
Proof. reflexivity. Qed.
(** What it holds, read off the symbols. *)
Lemma elf_has n it : holds lib_elf n it -> (n, it) = ("UNIFFI_META_a"%string, 7%nat) \/ (n, it) = ("UNIFFI_META_b"%string, 8%nat).
Proof.
  intros H. inversion H as [f e ? ? X | | | | |]; subst. apply elf_places_hold in X as (off & I & (_ & D)). cbn in I.
  pick; try discriminate I; injection I as <- <-; cbn in D; injection D as <-; [now left | now right].
Qed.
Lemma elf_one : one_item_each lib_elf.
Proof. intros n a b A B. apply elf_has in A, B. pick; congruence. Qed.
Lemma elf_unshared : unshared lib_elf.
Proof. constructor. exact I. Qed.
(** And it does hold them. *)
Lemma elf_a : holds lib_elf "UNIFFI_META_a" 7%nat.
Proof. constructor. apply elf_places_hold. exists 100. split; [now left | exact at100]. Qed.

(** * A Mach-O dylib where a symbol is exported too *)
Definition mach_ok : macho :=
  MachO [MachSection 0 0; MachSection 4096 96] [MachSymbol "_UNIFFI_META_a" true true 2 4100; MachSymbol "_UNIFFI_META_x" false true 2 4100]
        [("_UNIFFI_META_a"%string, 100); ("_UNIFFI_META_c"%string, 300)].
Definition lib_mach : object := OMach data mach_ok.
Lemma mach_ordered : in_address_order mach_ok.
Proof. intros [| [| i]] [| [| j]] a b L A B; cbn in A, B; try lia; try (destruct j; discriminate B); try (destruct i; discriminate A); injection A as <-; injection B as <-; cbn; lia. Qed.
Lemma mach_is : mach_sound data mach_ok.
Proof.
  split.
  - intros s I G _ _. cbn in I. pick; subst; [| discriminate G]. cbn. split; [lia |]. exists (MachSection 4096 96), 7%nat. split; [reflexivity | exact at100].
  - intros n off I _. cbn in I. pick; injection I as <- <-; [exists 7%nat; exact at100 | exists 9%nat; exact at300].
Qed.
Lemma mach_is_sound : sound lib_mach.
Proof. constructor; [exact mach_is | exact mach_ordered]. Qed.
Lemma mach_one : one_item_each lib_mach.
Proof.
  assert (H : forall n it, holds lib_mach n it -> (n, it) = ("_UNIFFI_META_a"%string, 7%nat) \/ (n, it) = ("_UNIFFI_META_c"%string, 9%nat)).
  { intros n it H. inversion H as [| | f m ? ? X | | |]; subst. apply mach_places_hold in X as (off & I & (_ & D)); [| exact mach_is | exact mach_ordered].
    cbn in I. pick; try discriminate I; injection I as <- <-; cbn in D; injection D as <-; [now left | now left | now right]. }
  intros n a b A B. apply H in A, B. pick; congruence.
Qed.
Lemma mach_lists : extract lib_mach = Items [7; 9]%nat.
Proof. reflexivity. Qed.

(** * An archive of an ELF object and another *)
Definition elf_c : elf := Elf [ElfSymbol (Some "UNIFFI_META_c") 300 0] [] [ElfSection 0 0 false] (fun _ => None).
Definition lib_archive : object :=
  OArchive [("a.o"%string, ["UNIFFI_META_a"; "main"; "UNIFFI_META_b"]%string); ("c.o"%string, ["UNIFFI_META_c"]%string); ("d.o"%string, ["d"]%string)]
           [("a.o"%string, lib_elf); ("c.o"%string, OElf data elf_c)].
Lemma c_has n it : holds (OElf data elf_c) n it -> (n, it) = ("UNIFFI_META_c"%string, 9%nat).
Proof.
  intros H. inversion H as [f e ? ? X | | | | |]; subst. apply elf_places_hold in X as (off & I & (_ & D)). cbn in I.
  pick; try discriminate I; injection I as <- <-; cbn in D; now injection D as <-.
Qed.
Lemma c_is_sound : sound (OElf data elf_c).
Proof.
  constructor. split.
  - intros s I. cbn in I. pick; subst; discriminate.
  - intros i s n E N M. destruct i as [| i]; cbn in E; [| now destruct i]. injection E as <-. cbn in N. injection N as <-.
    exists 0, (ElfSection 0 0 false), 9%nat. cbn. split; [left; split; [discriminate | reflexivity] |]. split; [lia |]. split; [reflexivity |]. split; [lia | exact at300].
Qed.
Lemma archive_is_sound : sound lib_archive.
Proof.
  constructor.
  - cbn. constructor; [intros [D | []]; discriminate D | constructor; [intros [] | constructor]].
  - intros m o n it I H. cbn in I. pick; injection I as <- <-.
    + exists ["UNIFFI_META_a"; "main"; "UNIFFI_META_b"]%string. split; [now left |]. apply elf_has in H. pick; injection H as -> ->; cbn; auto.
    + exists ["UNIFFI_META_c"]%string. split; [right; now left |]. apply c_has in H. injection H as -> ->. now left.
  - intros m syms I (n & J & M). cbn in I. pick; injection I as <- <-; [now left | right; now left |].
    cbn in J. pick. subst n. exfalso. revert M. not_named.
  - intros m o I. cbn in I. pick; injection I as <- <-; [exact elf_is_sound | exact c_is_sound].
Qed.
Lemma archive_one : one_item_each lib_archive.
Proof.
  assert (H : forall n it, holds lib_archive n it -> (n, it) = ("UNIFFI_META_a"%string, 7%nat) \/ (n, it) = ("UNIFFI_META_b"%string, 8%nat) \/ (n, it) = ("UNIFFI_META_c"%string, 9%nat)).
  { intros n it H. inversion H as [| | | | | ? ? m o ? ? I X]; subst. cbn in I. pick; injection I as <- <-.
    - apply elf_has in X. tauto.
    - apply c_has in X. tauto. }
  intros n a b A B. apply H in A, B. pick; congruence.
Qed.
Lemma archive_unshared : unshared lib_archive.
Proof.
  apply unshared_archive.
  - intros m o m' o' n it it' A B H H'. cbn in A, B. pick; injection A as <- <-; injection B as <- <-; try reflexivity; exfalso;
      [> first [apply elf_has in H; apply c_has in H' | apply c_has in H; apply elf_has in H']; pick; congruence ..].
  - intros m o I. cbn in I. pick; injection I as <- <-; constructor; exact Logic.I.
Qed.
Lemma archive_lists : extract lib_archive = Items [7; 8; 9]%nat.
Proof. reflexivity. Qed.

(** * What goes wrong *)
(** A stripped library has its exported symbols in the other table. *)
Definition stripped : elf := Elf [] (e_syms elf_ok) (e_sections elf_ok) (word_at elf_ok).
Lemma stripped_empty : extract (OElf data stripped) = Items [] /\ In (ElfSymbol (Some "UNIFFI_META_a"%string) 4100 1) (e_dynsyms stripped)
  /\ nth_error (e_sections stripped) 1 = Some (ElfSection 4096 96 false) /\ data_at data (96 + (4100 - 4096)) 7%nat.
Proof. split; [reflexivity |]. split; [now left |]. split; [reflexivity | exact at100]. Qed.
(** Sections of a Mach-O file that do not come by address. *)
Definition unordered : macho := MachO [MachSection 4096 96; MachSection 0 306] [MachSymbol "_UNIFFI_META_a" true true 1 4100] [].
Lemma unordered_is : mach_sound data unordered.
Proof.
  split; [| intros n off []]. intros s I _ _ _. cbn in I. pick; subst. cbn. split; [lia |]. exists (MachSection 4096 96), 7%nat. split; [reflexivity | exact at100].
Qed.
Lemma unordered_wrong : mach_sound data unordered /\ holds (OMach data unordered) "_UNIFFI_META_a" 7%nat /\ extract (OMach data unordered) = Panicked.
Proof.
  split; [exact unordered_is |]. split; [| reflexivity]. constructor. split; [apply (named_ "_a") |]. left.
  exists (MachSymbol "_UNIFFI_META_a" true true 1 4100), (MachSection 4096 96). cbn.
  split; [now left |]. split; [reflexivity |]. split; [reflexivity |]. split; [reflexivity |]. split; [lia |]. split; [reflexivity | exact at100].
Qed.
(** Or, worse, the item of another symbol is read. *)
Definition swapped : macho := MachO [MachSection 50 96; MachSection 40 286] [MachSymbol "_UNIFFI_META_a" true true 1 54] [].
Lemma swapped_wrong : holds (OMach data swapped) "_UNIFFI_META_a" 7%nat /\ extract (OMach data swapped) = Items [9%nat] /\ ~ exists n, holds (OMach data swapped) n 9%nat.
Proof.
  split; [| split; [reflexivity |]].
  - constructor. split; [apply (named_ "_a") |]. left.
    exists (MachSymbol "_UNIFFI_META_a" true true 1 54), (MachSection 50 96). cbn.
    split; [now left |]. split; [reflexivity |]. split; [reflexivity |]. split; [reflexivity |]. split; [lia |]. split; [reflexivity | exact at100].
  - intros (n & H). inversion H as [| | ? ? ? ? X | | |]; subst. destruct X as (_ & [(s & sec & I & _ & _ & _ & _ & E & _ & D) | (off & [] & _)]).
    cbn in I. pick; subst s. cbn in E. injection E as <-. cbn in D. discriminate D.
Qed.
(** Two members with one name: the second is never looked at. *)
Definition two_members : object :=
  OArchive [("a.o"%string, ["UNIFFI_META_a"; "UNIFFI_META_b"]%string); ("a.o"%string, ["UNIFFI_META_c"]%string)] [("a.o"%string, lib_elf); ("a.o"%string, OElf data elf_c)].
Lemma c_holds : holds (OElf data elf_c) "UNIFFI_META_c" 9%nat.
Proof. constructor. apply elf_places_hold. exists 300. split; [now left | exact at300]. Qed.
Lemma two_members_lost : extract two_members = Items [7; 8]%nat /\ holds two_members "UNIFFI_META_c" 9%nat.
Proof. split; [reflexivity |]. apply (holds_archive _ _ "a.o" (OElf data elf_c)); [right; now left | exact c_holds]. Qed.
(** One symbol in two members: read twice. *)
Definition twice : object := OArchive [("a.o"%string, ["UNIFFI_META_c"]%string); ("b.o"%string, ["UNIFFI_META_c"]%string)] [("a.o"%string, OElf data elf_c); ("b.o"%string, OElf data elf_c)].
Lemma twice_is_sound : sound twice.
Proof.
  constructor.
  - cbn. constructor; [intros [D | []]; discriminate D | constructor; [intros [] | constructor]].
  - intros m o n it I H. exists ["UNIFFI_META_c"]%string. cbn in I. pick; injection I as <- <-; apply c_has in H; injection H as -> ->; cbn; auto.
  - intros m syms I _. cbn in I. pick; injection I as <- <-; cbn; auto.
  - intros m o I. cbn in I. pick; injection I as <- <-; exact c_is_sound.
Qed.
Lemma twice_one : one_item_each twice.
Proof.
  assert (H : forall n it, holds twice n it -> (n, it) = ("UNIFFI_META_c"%string, 9%nat)).
  { intros n it H. inversion H as [| | | | | ? ? m o ? ? I X]; subst. cbn in I. pick; injection I as <- <-; now apply c_has in X. }
  intros n a b A B. apply H in A, B. congruence.
Qed.
Lemma twice_read : sound twice /\ one_item_each twice /\ extract twice = Items [9; 9]%nat.
Proof. split; [exact twice_is_sound |]. split; [exact twice_one | reflexivity]. Qed.
(** A static of the user's whose name begins like that of metadata. *)
Definition namesake : elf := Elf [ElfSymbol (Some "UNIFFI_META_a") 4100 1; ElfSymbol (Some "UNIFFI_METABOLISM") 4200 1] [] (e_sections elf_ok) (fun _ => None).
Lemma namesake_fails : extract (OElf data namesake) = Failed /\ holds (OElf data namesake) "UNIFFI_META_a" 7%nat.
Proof. split; [reflexivity |]. constructor. apply elf_places_hold. exists 100. split; [now left | exact at100]. Qed.
(** An object that only refers to the symbol (index 0): the start of the file is read. *)
Definition reference : elf := Elf [ElfSymbol (Some "UNIFFI_META_a") 0 0] [] (e_sections elf_ok) (fun _ => None).
Lemma reference_fails : extract (OElf data reference) = Failed.
Proof. reflexivity. Qed.
(** Files cut short. *)
Definition cut : elf := Elf [ElfSymbol (Some "UNIFFI_META_a") 9999 1] [] (e_sections elf_ok) (fun _ => None).
Definition no_section : macho := MachO [] [MachSymbol "_UNIFFI_META_a" true true 3 4100] [].
Lemma cut_panics : extract (OElf data cut) = Panicked /\ extract (OMach data no_section) = Panicked /\ extract (OFat []) = Panicked.
Proof. split; [reflexivity |]. split; reflexivity. Qed.
(** Two architectures. *)
Definition mach_a : macho := MachO [] [] [("_UNIFFI_META_a"%string, 100)].
Lemma mach_a_sound : sound (OMach data mach_a).
Proof.
  constructor.
  - split; [intros s [] |]. intros n off I _. cbn in I. pick. injection I as <- <-. exists 7%nat. exact at100.
  - intros i j a b _ A _. destruct i; discriminate A.
Qed.
Definition fat : object := OFat [OMach data mach_a; lib_mach].
Lemma fat_first : extract fat = Items [7%nat] /\ holds fat "_UNIFFI_META_c" 9%nat.
Proof.
  split; [reflexivity |]. apply (holds_fat _ lib_mach); [right; now left |]. constructor. split; [apply (named_ "_c") |]. right. exists 300. split; [right; now left | exact at300].
Qed.
(** A COFF object where a symbol of no interest has a wrong section. *)
Definition odd_coff : coff := Coff [96] true (Some [CoffSymbol 1 (Some "UNIFFI_META_a"%string) 4; CoffSymbol 9 (Some "other"%string) 0]).
Lemma odd_coff_fails : extract (OCoff data odd_coff) = Failed /\ holds (OCoff data odd_coff) "UNIFFI_META_a" 7%nat.
Proof. split; [reflexivity |]. constructor. apply coff_places_hold. exists 100. split; [now left | exact at100]. Qed.
(** A PE library with one export. *)
Definition pe_ok : list pe_export := [PeExport None None; PeExport (Some "other"%string) None; PeExport (Some "UNIFFI_META_a"%string) (Some 100)].
Lemma pe_lists : extract (OPe data pe_ok) = Items [7%nat].
Proof. reflexivity. Qed.
Definition coff_ok : coff := Coff [96] true (Some [CoffSymbol 1 (Some "UNIFFI_META_a"%string) 4; CoffSymbol 0 (Some "UNIFFI_META_b"%string) 0]).
Lemma coff_lists : extract (OCoff data coff_ok) = Items [7%nat].
Proof. reflexivity. Qed.

(** * What is refuted *)
Lemma stripped_lost : ~ (forall f e n s sh it, In s (e_dynsyms e) -> es_name s = Some n -> metadata_name n ->
  0 <= es_index s < xindex -> nth_error (e_sections e) (Z.to_nat (es_index s)) = Some sh ->
  data_at f (sh_offset sh + (es_value s - sh_addr sh)) it -> exists l, extract (OElf f e) = Items l /\ In it l).
Proof.
  intros H. destruct stripped_empty as (E & I & S & D).
  destruct (H data stripped "UNIFFI_META_a"%string _ (ElfSection 4096 96 false) 7%nat I eq_refl (named "_a") ltac:(unfold xindex; cbn; lia) S D) as (l & E' & J).
  rewrite E in E'. injection E' as <-. destruct J.
Qed.
Lemma order_matters : ~ (forall f m n it, mach_sound f m -> holds (OMach f m) n it -> exists l, extract (OMach f m) = Items l /\ In it l).
Proof.
  intros H. destruct unordered_wrong as (S & X & E). destruct (H _ _ _ _ S X) as (l & E' & _). rewrite E in E'. discriminate E'.
Qed.
Lemma mach_something_else : ~ (forall f m l it, extract (OMach f m) = Items l -> In it l -> exists n, holds (OMach f m) n it).
Proof. intros H. destruct swapped_wrong as (_ & E & N). apply N. exact (H _ _ _ 9%nat E (or_introl eq_refl)). Qed.
Lemma members_lost : ~ (forall index members l n it, extract (OArchive index members) = Items l ->
  (forall m o, In (m, o) members -> sound o) ->
  (forall m o n it, In (m, o) members -> holds o n it -> exists syms, In (m, syms) index /\ In n syms) ->
  holds (OArchive index members) n it -> In it l).
Proof.
  intros H. destruct two_members_lost as (E & X). assert (I : In 9%nat [7; 8]%nat); [| cbn in I; pick; discriminate I].
  apply (H _ _ _ "UNIFFI_META_c"%string 9%nat E); [| | exact X].
  - intros m o I. cbn in I. pick; injection I as <- <-; [exact elf_is_sound | exact c_is_sound].
  - intros m o n it I Y. cbn in I. pick; injection I as <- <-.
    + exists ["UNIFFI_META_a"; "UNIFFI_META_b"]%string. split; [now left |]. apply elf_has in Y. pick; injection Y as -> ->; cbn; auto.
    + exists ["UNIFFI_META_c"]%string. split; [right; now left |]. apply c_has in Y. injection Y as -> ->. now left.
Qed.
Lemma read_twice : ~ (forall o, sound o -> one_item_each o ->
  exists pairs, extract o = Items (map snd pairs) /\ NoDup (map fst pairs) /\ complete_for o pairs).
Proof.
  intros H. destruct twice_read as (S & U & E). destruct (H twice S U) as (pairs & E' & N & C). rewrite E in E'. injection E' as E'.
  destruct pairs as [| [n a] [| [m b] [| p q]]]; cbn in E'; try discriminate E'. 
  assert (HH : forall n it, holds twice n it -> n = "UNIFFI_META_c"%string).
  { intros x it X. inversion X as [| | | | | ? ? k o ? ? I Y]; subst. cbn in I. pick; injection I as <- <-; apply c_has in Y; now injection Y as ->. }
  assert (n = "UNIFFI_META_c"%string) as -> by (apply (HH n a), C; now left).
  assert (m = "UNIFFI_META_c"%string) as -> by (apply (HH m b), C; right; now left).
  cbn in N. apply NoDup_cons_iff in N as [N _]. apply N. now left.
Qed.
Lemma namesake_breaks : ~ (forall f e, (exists n it, holds (OElf f e) n it) ->
  (forall s, In s (e_syms e) -> es_name s = Some "UNIFFI_METABOLISM"%string
     \/ exists n it, es_name s = Some n /\ holds (OElf f e) n it) -> extract (OElf f e) <> Failed).
Proof.
  intros H. destruct namesake_fails as (E & X). apply (H data namesake); [exists "UNIFFI_META_a"%string, 7%nat; exact X | | exact E].
  intros s I. cbn in I. pick; subst s; [right; exists "UNIFFI_META_a"%string, 7%nat; split; [reflexivity | exact X] | now left].
Qed.
Lemma reference_breaks : ~ (forall f e, (forall s, In s (e_syms e) -> es_index s = 0 /\ es_value s = 0) -> extract (OElf f e) = Items []).
Proof.
  intros H. specialize (H data reference). rewrite reference_fails in H. discriminate H.
  intros s I. cbn in I. pick; subst s. split; reflexivity.
Qed.
Lemma damaged_panics : ~ (forall o, extract o <> Panicked).
Proof. intros H. exact (H _ (proj1 cut_panics)). Qed.
Lemma fat_lost : ~ (forall arches n it l, (forall a, In a arches -> sound a) -> holds (OFat arches) n it -> extract (OFat arches) = Items l -> In it l).
Proof.
  intros H. destruct fat_first as (E & X). assert (I : In 9%nat [7%nat]); [| cbn in I; pick; discriminate I].
  apply (H [OMach data mach_a; lib_mach] "_UNIFFI_META_c"%string 9%nat); [| exact X | exact E].
  intros a I. cbn in I. pick; subst a; [exact mach_a_sound | exact mach_is_sound].
Qed.
Lemma unrelated_breaks : ~ (forall f c,
  (forall ss s n, c_symbols c = Some ss -> In s ss -> cs_name s = Some n -> metadata_name n -> exists it, holds (OCoff f c) n it) ->
  extract (OCoff f c) <> Failed).
Proof.
  intros H. destruct odd_coff_fails as (E & X). apply (H data odd_coff); [| exact E].
  intros ss s n Q I N M. injection Q as <-. cbn in I. pick; subst s; cbn in N; injection N as <-; [eauto |]. revert M. not_named.
Qed.
