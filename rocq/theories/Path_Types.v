(** Rust sources as the source-reading front end (uniffi_parse_rs) keeps them: modules with their items.
    uniffi_parse_rs/src/items.rs l.14-76 and l.91-180, modules.rs l.21-36, use_.rs l.10-24,
    paths.rs l.570-645, ir.rs l.28-40.
    Simplifications: identifiers are without [r#]; modules are kept beside each other under their
    numbers instead of inside each other; a module's number is larger than its parent's, as the
    generator of numbers makes it (modules.rs l.76-86: a module gets its number before its items are
    read). *)
From Verif Require Import Base Meta_Types.

Inductive vis := Public | Private.
(** What the front end knows without reading it: types, traits and the error of callbacks; macros. *)
Inductive std_item := StdType (name : str) | StdMacro (name : str).
Record path := Path { lead : bool; segs : list str }.
Inductive kind :=
| KModule (m : nat)
| KRecord (remote : bool) | KEnum (remote : bool) | KObject (remote : bool)
| KFn | KTrait | KType | KCustom | KNonUniffi
| KUse (p : path)                     (* [use p as name] *)
| KGlob (p : path)                    (* [use p::*] *)
| KRemote (p : path)                  (* [uniffi::use_remote_type!(p)] *)
| KUdl                                (* from a UDL file *)
| KOther                              (* [impl] blocks, what is not read yet *)
| KStd (b : std_item).
(** [i_id] stands for the address of the item; [i_alias] is the name given by an attribute. *)
Inductive iid := Src (n : nat) | Std (b : std_item).
Record item := Item { i_id : iid; i_name : str; i_alias : option str; i_vis : vis; i_kind : kind }.
Record ir := Ir { mods : list (nat * list item); roots : list (str * item) }.
Fixpoint find_mod (l : list (nat * list item)) (m : nat) : list item :=
  match l with
  | [] => []
  | (k, its) :: l => if Nat.eqb k m then its else find_mod l m
  end.
Definition items_of (r : ir) (m : nat) : list item := find_mod (mods r) m.
Fixpoint find_root (l : list (str * item)) (x : str) : option item :=
  match l with
  | [] => None
  | (k, it) :: l => if bytes_eqb k x then Some it else find_root l x
  end.

(** A path all of whose parts are items (paths.rs l.30-33), last part first. *)
Definition rpath := list item.

(** paths.rs l.591-633. *)
Inductive ns := NsValue | NsType | NsMacro | NsNonUniffi.
Definition ns_eqb (a b : ns) : bool :=
  match a, b with
  | NsValue, NsValue | NsType, NsType | NsMacro, NsMacro | NsNonUniffi, NsNonUniffi => true
  | _, _ => false
  end.
Definition matches (n : ns) (it : item) : bool :=
  match n, i_kind it with
  | NsType, (KModule _ | KRecord _ | KEnum _ | KObject _ | KTrait | KCustom | KUdl | KType | KRemote _) => true
  | NsType, KStd (StdType _) => true
  | NsType, _ => false
  | NsValue, KFn => true
  | NsValue, _ => false
  | NsMacro, KStd (StdType _) => false
  | NsMacro, _ => true
  | NsNonUniffi, KNonUniffi => true
  | NsNonUniffi, _ => false
  end.

(** items.rs l.91-107 [Item::ident]. *)
Definition ident (it : item) : option str :=
  match i_kind it with
  | KModule _ | KRecord _ | KEnum _ | KObject _ | KFn | KTrait | KType | KCustom | KNonUniffi => Some (i_name it)
  | KRemote p => match rev (segs p) with x :: _ => Some x | [] => None end
  | _ => None
  end.
(** items.rs l.158-171 [Item::is_special]. *)
Definition special (it : item) : bool :=
  match i_kind it with
  | KRecord r | KEnum r | KObject r => r
  | KRemote _ | KCustom => true
  | _ => false
  end.
Definition std_eqb (a b : std_item) : bool :=
  match a, b with
  | StdType x, StdType y | StdMacro x, StdMacro y => bytes_eqb x y
  | _, _ => false
  end.
(** items.rs l.173-176 [Item::is]. *)
Definition is_item (a b : item) : bool :=
  match i_id a, i_id b with
  | Src n, Src m => Nat.eqb n m
  | Std x, Std y => std_eqb x y
  | _, _ => false
  end.

(** paths.rs l.668-746 [get_builtin_item]: the item with the given full path. *)
Definition prims : list string :=
  ["bool"; "u8"; "i8"; "u16"; "i16"; "u32"; "i32"; "u64"; "i64"; "f32"; "f64"]%string.
Open Scope string_scope.
Open Scope list_scope.
Definition std_table : list (list string * std_item) :=
  (["std"; "primitive"; "unit"], StdType (S_ "()")) :: (["core"; "primitive"; "unit"], StdType (S_ "()")) ::
  flat_map (fun x => [([x], StdType (S_ x)); (["std"; "primitive"; x], StdType (S_ x));
                      (["core"; "primitive"; x], StdType (S_ x))]) prims ++
  [(["Option"], StdType (S_ "Option")); (["std"; "option"; "Option"], StdType (S_ "Option"));
   (["Box"], StdType (S_ "Box")); (["std"; "boxed"; "Box"], StdType (S_ "Box"));
   (["Vec"], StdType (S_ "Vec")); (["std"; "vec"; "Vec"], StdType (S_ "Vec"));
   (["Result"], StdType (S_ "Result")); (["std"; "result"; "Result"], StdType (S_ "Result"));
   (["String"], StdType (S_ "String")); (["std"; "string"; "String"], StdType (S_ "String"));
   (["str"], StdType (S_ "str")); (["std"; "primitive"; "str"], StdType (S_ "str"));
   (["From"], StdType (S_ "From")); (["std"; "convert"; "From"], StdType (S_ "From"));
   (["std"; "collections"; "HashMap"], StdType (S_ "HashMap"));
   (["std"; "collections"; "HashSet"], StdType (S_ "HashSet"));
   (["std"; "sync"; "Arc"], StdType (S_ "Arc"));
   (["std"; "time"; "SystemTime"], StdType (S_ "SystemTime"));
   (["std"; "time"; "Duration"], StdType (S_ "Duration"));
   (["uniffi"; "UnexpectedUniFFICallbackError"], StdType (S_ "UnexpectedUniFFICallbackError"))] ++
  map (fun x => (["uniffi"; x], StdMacro (S_ x)))
    ["custom_type"; "custom_newtype"; "export"; "remote"; "use_remote_type"; "Record"; "Enum"; "Error"; "Object"]%string.
Close Scope string_scope.
Fixpoint strs_eqb (a b : list str) : bool :=
  match a, b with
  | [], [] => true
  | x :: a, y :: b => bytes_eqb x y && strs_eqb a b
  | _, _ => false
  end.
Definition std_of (l : list str) : option std_item :=
  match find (fun e => strs_eqb (map S_ (fst e)) l) std_table with
  | Some (_, b) => Some b
  | None => None
  end.
Definition std_name (b : std_item) : str := match b with StdType n | StdMacro n => n end.
Definition std (b : std_item) : item := Item (Std b) (std_name b) None Public (KStd b).
