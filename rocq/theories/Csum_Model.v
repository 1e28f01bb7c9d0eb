(** Model of the checksums of items defined in UDL: the [Checksum] trait and its derived
    implementations, on the interface's [Function], [Method] and [Constructor].  The hash itself,
    SipHash 1-3 (uniffi_meta/src/lib.rs l.566-570), is a parameter: a function of the bytes written. *)
From Verif Require Import Base Meta_Types Names_Model.
Open Scope Z_scope.

(** uniffi_meta/src/lib.rs l.38-117. *)
Definition cs_bool (b : bool) : bytes := [if b then x01 else x00].
Definition cs_u64 (n : Z) : bytes := le_bytes 8 (Z.to_N n).
(** Two's complement. *)
Definition cs_i64 (z : Z) : bytes := le_bytes 8 (Z.to_N (z mod 2 ^ 64)).
Definition cs_str (s : str) : bytes := s ++ [xff].
Definition cs_list {A} (f : A -> bytes) (l : list A) : bytes :=
  cs_u64 (Z.of_nat (length l)) ++ flat_map f l.
Definition cs_opt {A} (f : A -> bytes) (o : option A) : bytes :=
  match o with None => cs_u64 0 | Some x => cs_u64 1 ++ f x end.

(** Enums, uniffi_internal_macros/src/checksum.rs l.37-96: the discriminant (explicit, or counted from
    zero) and the fields. *)
Definition cs_kind (k : trait_kind) : bytes :=
  cs_u64 (match k with RustOnly => 0 | Both => 1 | ForeignOnly => 2 end).
Definition cs_imp (i : obj_impl) : bytes :=
  match i with IStruct => cs_u64 0 | ITrait k => cs_u64 1 ++ cs_kind k end.
(** The order of uniffi_meta/src/types.rs l.83-147. *)
Definition ty_index (t : ty) : Z :=
  match t with
  | TU8 => 0 | TI8 => 1 | TU16 => 2 | TI16 => 3 | TU32 => 4 | TI32 => 5 | TU64 => 6 | TI64 => 7
  | TF32 => 8 | TF64 => 9 | TBool => 10 | TString => 11 | TBytes => 12 | TTimestamp => 13
  | TDuration => 14 | TObject _ _ _ => 15 | TRecord _ _ => 16 | TEnum _ _ => 17
  | TCallback _ _ => 18 | TBox _ => 19 | TOption _ => 20 | TSeq _ => 21 | TMap _ _ => 22
  | TSet _ => 23 | TCustom _ _ _ => 24
  end.
Fixpoint cs_ty (t : ty) : bytes :=
  cs_u64 (ty_index t) ++
  match t with
  | TObject mp n i => cs_str mp ++ cs_str n ++ cs_imp i
  | TRecord mp n | TEnum mp n | TCallback mp n => cs_str mp ++ cs_str n
  | TBox t | TOption t | TSeq t | TSet t => cs_ty t
  | TMap k v => cs_ty k ++ cs_ty v
  | TCustom mp n t => cs_str mp ++ cs_str n ++ cs_ty t
  | _ => []
  end.
Definition cs_radix (r : radix) : bytes :=
  cs_u64 (match r with Decimal_ => 10 | Octal_ => 8 | Hexadecimal_ => 16 end).
Definition lit_index (l : literal) : Z :=
  match l with
  | LBool _ => 0 | LString _ => 1 | LUInt _ _ _ => 2 | LInt _ _ _ => 3 | LFloat _ _ => 4
  | LEnum _ _ => 5 | LEmptySeq => 6 | LEmptyMap => 7 | LEmptySet => 8 | LNone => 9 | LSome _ => 10
  end.
Fixpoint cs_lit (l : literal) : bytes :=
  cs_u64 (lit_index l) ++
  match l with
  | LBool b => cs_bool b
  | LString s => cs_str s
  | LUInt z r t => cs_u64 z ++ cs_radix r ++ cs_ty t
  | LInt z r t => cs_i64 z ++ cs_radix r ++ cs_ty t
  | LFloat s t | LEnum s t => cs_str s ++ cs_ty t
  | LSome d => cs_default d
  | _ => []
  end
with cs_default (d : default) : bytes :=
  match d with DDefault => cs_u64 0 | DLit l => cs_u64 1 ++ cs_lit l end.
Definition cs_pass (p : pass_by) : bytes :=
  cs_u64 (match p with ByValue => 0 | ByRef => 1 | ByMutRef => 2 end).

(** uniffi_bindgen/src/interface/function.rs l.184-191 [Argument]: a parameter and its [optional]
    flag. *)
Record uarg := UArg { ua_param : param; ua_optional : bool }.
Definition cs_arg (a : uarg) : bytes :=
  let p := ua_param a in
  cs_str (p_name p) ++ cs_ty (p_ty p) ++ cs_pass (p_pass p) ++ cs_bool (ua_optional a) ++
  cs_opt cs_default (p_default p).

(** [Function] (function.rs l.47-70), [Constructor] and [Method] (object.rs l.359-386, l.488-517), in
    one record with the fields some of them lack left unused: [u_self] and [u_by_arc].  Fields that
    are ignored by the checksum and determined by others are left out. *)
Inductive ukind := UFunc | UMethod | UConstructor.
Record ufn := UFn {
  u_name : str; u_mp : str; u_self : str; u_async : bool; u_args : list uarg; u_ret : option ty;
  u_throws : option ty; u_by_arc : bool; u_doc : option str; u_stored : option Z }.

(** [checksum_fn_name]. *)
Definition u_checksum_name (k : ukind) (f : ufn) : str :=
  match k with
  | UFunc => fn_checksum_symbol_name (u_mp f) (u_name f)
  | UMethod => method_checksum_symbol_name (u_mp f) (u_self f) (u_name f)
  | UConstructor => constructor_checksum_symbol_name (u_mp f) (u_self f) (u_name f)
  end.

(** The derived implementations on the three structs: fields in order, without those marked
    [checksum_ignore]. *)
Definition stream (k : ukind) (f : ufn) : bytes :=
  match k with
  | UFunc =>
      cs_str (u_name f) ++ cs_str (u_mp f) ++ cs_bool (u_async f) ++ cs_list cs_arg (u_args f) ++
      cs_opt cs_ty (u_ret f) ++ cs_opt cs_ty (u_throws f) ++ cs_str (u_checksum_name k f)
  | UMethod =>
      cs_str (u_name f) ++ cs_bool (u_async f) ++ cs_list cs_arg (u_args f) ++
      cs_opt cs_ty (u_ret f) ++ cs_opt cs_ty (u_throws f) ++ cs_bool (u_by_arc f) ++
      cs_str (u_checksum_name k f)
  | UConstructor =>
      cs_str (u_name f) ++ cs_str (u_self f) ++ cs_str (u_mp f) ++ cs_bool (u_async f) ++
      cs_list cs_arg (u_args f) ++ cs_opt cs_ty (u_throws f) ++ cs_str (u_checksum_name k f) ++
      cs_ty (TObject (u_mp f) (u_self f) IStruct)
  end.

(** function.rs l.106-108, object.rs l.420-422 and l.572-574 [checksum]; lib.rs l.566-570. *)
Definition ci_checksum (hash : bytes -> Z) (k : ukind) (f : ufn) : Z :=
  match u_stored f with Some c => c | None => hash (stream k f) mod 65536 end.

Definition set_stored (o : option Z) (f : ufn) : ufn :=
  UFn (u_name f) (u_mp f) (u_self f) (u_async f) (u_args f) (u_ret f) (u_throws f) (u_by_arc f)
      (u_doc f) o.
Definition set_udoc (o : option str) (f : ufn) : ufn :=
  UFn (u_name f) (u_mp f) (u_self f) (u_async f) (u_args f) (u_ret f) (u_throws f) (u_by_arc f)
      o (u_stored f).

(** The scaffolding generated from UDL: scaffolding/templates/Checksums.rs writes [iter_checksums]
    (interface/mod.rs l.882-912) of the interface parsed from the UDL file, where no checksum is
    stored. *)
Definition udl_scaffolding (hash : bytes -> Z) (k : ukind) (f : ufn) : Z := ci_checksum hash k f.
(** The bindings: uniffi_bindgen/src/loader.rs l.127-149 [add_checksums_to_udl_group] stores the
    checksum before anything else happens to the item ... *)
Definition load_udl (hash : bytes -> Z) (k : ukind) (f : ufn) : ufn :=
  match u_stored f with
  | Some _ => f
  | None => set_stored (Some (hash (stream k f) mod 65536)) f
  end.
(** ... and renaming (interface/rename.rs) changes names and types but not what is stored. *)
Definition rename_arg (on_name : str -> str) (on_ty : ty -> ty) (a : uarg) : uarg :=
  let p := ua_param a in
  UArg (Param (on_name (p_name p)) (on_ty (p_ty p)) (p_pass p) (p_default p)) (ua_optional a).
Definition rename_ufn (on_name : str -> str) (on_ty : ty -> ty) (f : ufn) : ufn :=
  UFn (on_name (u_name f)) (u_mp f) (on_name (u_self f)) (u_async f)
      (map (rename_arg on_name on_ty) (u_args f)) (option_map on_ty (u_ret f))
      (option_map on_ty (u_throws f)) (u_by_arc f) (u_doc f) (u_stored f).
