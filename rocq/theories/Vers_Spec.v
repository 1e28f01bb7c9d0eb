(** What "the bindings match the library" means. *)
From Verif Require Import Base Utf8 Meta_Types Meta_Model Meta_Spec Names_Model Csum_Model Csum_Spec Vers_Model.
Local Open Scope Z_scope.

(** Items that compile and can be read. *)
Definition readable (d : nat) (a : api) : Prop :=
  match a with
  | Macro omp m => recordable d m /\ utf8 omp /\ exists b, write omp m = Some b
  | Udl _ f => u_stored f = None
  end.

(** What each item is called in the library, and its checksum. *)
Definition api_symbol (a : api) : option str :=
  match a with Macro _ m => checksum_symbol m | Udl k f => Some (u_checksum_name k f) end.
Definition api_checksum (hash : bytes -> Z) (a : api) : option Z :=
  match a with
  | Macro omp m => scaffolding_checksum omp m
  | Udl k f => Some (hash (stream k f) mod 65536)
  end.

Definition object_named (items : list api) (s : str) : Prop :=
  exists omp o, In (Macro omp (MObject o)) items /\ o_name o = s.
Definition callback_named (items : list api) (s : str) : Prop :=
  exists omp mp doc, In (Macro omp (MCallback mp s doc)) items.

(** The items whose checksum is checked: functions; constructors and methods of objects and of trait
    interfaces; methods of callback interfaces, but not by Python. *)
Definition covered (t : target) (items : list api) (a : api) : Prop :=
  match a with
  | Udl _ _ => True
  | Macro _ (MFunc _) => True
  | Macro _ (MConstructor s _) | Macro _ (MMethod s _) => object_named items s
  | Macro _ (MTraitMethod s _ _) => object_named items s \/ (t <> Python /\ callback_named items s)
  | Macro _ _ => False
  end.

(** Two items are the same but for checksums: everything the metadata records. *)
Definition same_item (a a' : api) : Prop :=
  match a, a' with
  | Macro _ m, Macro _ m' => no_checksum m = no_checksum m'
  | Udl k f, Udl k' f' => k = k' -> same_signature k f f'
  | _, _ => False
  end.

(** No collision: two items of the same name, one from each list, have the same checksum only if they
    are of the same origin and the same bytes were hashed. *)
Definition collision_free (hash : bytes -> Z) (items items' : list api) : Prop :=
  forall a a', In a items -> In a' items' -> api_symbol a = api_symbol a' ->
    api_checksum hash a = api_checksum hash a' ->
    match a, a' with
    | Macro omp m, Macro omp' m' => write omp m = write omp' m'
    | Udl k f, Udl k' f' => stream k f = stream k' f'
    | _, _ => False
    end.
Definition fits (d : nat) (a : api) : Prop :=
  match a with
  | Macro omp m => recordable d m /\ utf8 omp /\ exists b, write omp m = Some b
  | Udl _ f => u_stored f = None /\ ufn_fits f
  end.

(** When the version is checked, and when the checksums are: the manual says that a library of another
    version is refused; without metadata of the library (generated from sources) there are no
    checksums, and users of Kotlin and Swift may ask that they be left out. *)
Definition version_checked (t : target) (o : options) : Prop :=
  match t with Python => from_source o = false | Kotlin | Swift => True | Ruby => False end.
Definition sums_checked (t : target) (o : options) : Prop :=
  match t with
  | Python => from_source o = false
  | Kotlin | Swift => from_source o = false /\ omit_checksums o = false
  | Ruby => False
  end.
