(** Projects whose configuration shows what is kept and what is lost. *)
From Verif Require Import Tml_Spec Tml_Proofs.
From Coq Require Import Permutation.

(** A global file with defaults, an override and a listed root, and a crate with its own file. *)
Definition tx_texts (z : Z) : string :=
  (if z =? 1 then "vendor/geometry" else if z =? 2 then "org.example" else if z =? 3 then "org.example.geometry" else "x")%Z.
Definition tx_raw : table :=
  [("crate-roots", Table [("geometry", Leaf KString 1)]);
   ("defaults", Table [("bindings", Table [("kotlin", Table [("package_name", Leaf KString 2); ("android", Leaf KBoolean 1)]);
                                           ("swift", Table [("ffi_module_name", Leaf KString 4)])])]);
   ("crates", Table [("geometry", Table [("bindings", Table [("kotlin", Table [("package_name", Leaf KString 3)])])])])]%Z.
Definition tx_own : table :=
  [("bindings", Table [("kotlin", Table [("package_name", Leaf KString 5); ("android", Leaf KBoolean 0);
                                         ("cdylib_name", Leaf KString 6)])])]%Z.
Definition tx_files (p : string) : file := if String.eqb p "/ws/vendor/geometry/uniffi.toml" then Parsed tx_own else NoFile.
Definition tx_packages : list package :=
  [Package "geometry" [(TCdylib, "geometry")] "/registry/geometry-1.0"; Package "my-app" [(TBin, "my-app"); (TLib, "my_app")] "/ws/app"].
Definition tx_global : global := Global
  [("bindings", Table [("kotlin", Table [("package_name", Leaf KString 2); ("android", Leaf KBoolean 1)]);
                                           ("swift", Table [("ffi_module_name", Leaf KString 4)])])]%Z
  [("geometry", [("bindings", Table [("kotlin", Table [("package_name", Leaf KString 3)])])])]%Z.
Definition tx_roots : roots := [("geometry", "/ws/vendor/geometry")].
Example tx_read : from_file tx_texts "/ws" tx_raw = Ok (tx_global, Some tx_roots).
Proof. reflexivity. Qed.
Definition tx_result : table :=
  [("bindings", Table [("kotlin", Table [("package_name", Leaf KString 3); ("android", Leaf KBoolean 0); ("cdylib_name", Leaf KString 6)]);
                       ("swift", Table [("ffi_module_name", Leaf KString 4)])])]%Z.
Example tx_configured : configured tx_texts Bindgen (Some ("/ws", tx_raw)) tx_packages tx_files "geometry" = Ok tx_result.
Proof. vm_compute. reflexivity. Qed.
Definition tx_sources : list table := sources tx_files tx_global (layers_of Bindgen (Some tx_roots) tx_packages) "geometry".
Lemma proper_leaf k n : proper (Leaf k n).
Proof. intros [| x p] t H; discriminate H. Qed.
Lemma proper_table t : NoDup (map fst t) -> Forall (fun kv => proper (snd kv)) t -> proper (Table t).
Proof.
  intros N F [| k p] t' H; cbn in H; [injection H as <-; exact N |].
  destruct (get k t) as [v |] eqn:G; [| discriminate H]. apply get_in in G.
  rewrite Forall_forall in F. exact (F _ G p t' H).
Qed.
Ltac proved_proper := repeat first [ apply proper_leaf | apply proper_table | apply Forall_cons | apply Forall_nil | apply NoDup_nil
  | apply NoDup_cons; [cbn; intuition discriminate |] | progress cbn [snd map fst] ].
Example tx_proper : Forall (fun s => proper (Table s)) tx_sources.
Proof. vm_compute. proved_proper. Qed.
Example tx_strongest :
  map (first_setting tx_sources) [["bindings"; "kotlin"; "package_name"]; ["bindings"; "kotlin"; "android"];
                                  ["bindings"; "swift"; "ffi_module_name"]; ["bindings"]]
  = [Some (KString, 3%Z); Some (KBoolean, 0%Z); Some (KString, 4%Z); None].
Proof. reflexivity. Qed.
(** A clash: a table where another source has a text. *)
Example tx_clash : some_clash [[("bindings", Table [])]; [("bindings", Leaf KString 1%Z)]].
Proof. exists [("bindings", Table [])], [("bindings", Leaf KString 1%Z)]. cbn. repeat split; auto. exists ["bindings"], (Table []), (Leaf KString 1%Z). repeat split. discriminate. Qed.
Example tx_apart : told_apart tx_packages.
Proof.
  unfold told_apart, tx_packages. repeat split; cbn [In]; intros; repeat match goal with H : _ \/ _ |- _ => destruct H as [<- | H] | H : False |- _ => destruct H end;
    try reflexivity; repeat match goal with H : library_of _ = Some _ |- _ => vm_compute in H; injection H as <- end;
    match goal with H : underscore _ = underscore _ |- _ => vm_compute in H; discriminate H end.
Qed.
Example tx_own_directory : cargo_root tx_packages "my_app" = Some "/ws/app".
Proof. reflexivity. Qed.

(** * The JNI command asks cargo first *)
Example tx_jni : configured tx_texts BindgenJni (Some ("/ws", tx_raw)) tx_packages tx_files "geometry"
  = Ok [("bindings", Table [("kotlin", Table [("package_name", Leaf KString 3); ("android", Leaf KBoolean 1)]);
                            ("swift", Table [("ffi_module_name", Leaf KString 4)])])]%Z.
Proof. vm_compute. reflexivity. Qed.
Lemma jni_roots : ~ (forall text raw dir ps files crate g r root path own p s,
    from_file text dir raw = Ok (g, Some r) -> get crate r = Some root -> path = join root "uniffi.toml" -> files path = Parsed own ->
    get crate (overrides g) = None -> defaults g = [] -> setting own p = Some s ->
    exists t, configured text BindgenJni (Some (dir, raw)) ps files crate = Ok t /\ setting t p = Some s).
Proof.
  intros H.
  destruct (H tx_texts [("crate-roots", Table [("geometry", Leaf KString 1)])]%Z "/ws" tx_packages tx_files "geometry"
              no_global tx_roots "/ws/vendor/geometry" "/ws/vendor/geometry/uniffi.toml" tx_own
              ["bindings"; "kotlin"; "cdylib_name"] (KString, 6%Z) eq_refl eq_refl eq_refl eq_refl eq_refl eq_refl eq_refl) as (t & C & S).
  vm_compute in C. injection C as <-. discriminate S.
Qed.

(** * Settings that are read and dropped *)
Lemma dropped_settings : ~ (forall text c dir raw ps files crate t p s,
    configured text c (Some (dir, raw)) ps files crate = Ok t -> setting raw p = Some s -> exists q, setting t q = Some s).
Proof.
  intros H.
  destruct (H tx_texts Bindgen "/ws" tx_own tx_packages (fun _ => NoFile) "geometry" []
              ["bindings"; "kotlin"; "package_name"] (KString, 5%Z) eq_refl eq_refl) as (q & Q).
  destruct q as [| k q]; cbn in Q; discriminate Q.
Qed.
(** A section that is spelled wrongly is dropped without a word, beside one that is right. *)
Example tx_misspelt : configured tx_texts Bindgen
    (Some ("/ws", [("defaults", Table [("a", Leaf KInteger 1)]); ("default", Table [("b", Leaf KInteger 2)]);
                   ("crate", Table [("geometry", Table [("c", Leaf KInteger 3)])])]%Z)) tx_packages (fun _ => NoFile) "geometry"
  = Ok [("a", Leaf KInteger 1)]%Z.
Proof. reflexivity. Qed.

(** * Hyphens *)
Lemma hyphens_differ : ~ (forall text c dir raw ps files g r n o t,
    from_file text dir raw = Ok (g, r) -> get n (overrides g) = Some o -> cargo_root ps n = cargo_root ps (underscore n) ->
    configured text c (Some (dir, raw)) ps files (underscore n) = Ok t -> forall p s, setting o p = Some s -> setting t p = Some s).
Proof.
  intros H.
  discriminate (H tx_texts Bindgen "/ws" [("crates", Table [("my-app", Table [("a", Leaf KInteger 1)])])]%Z tx_packages (fun _ => NoFile)
    (Global [] [("my-app", [("a", Leaf KInteger 1)])])%Z None "my-app" [("a", Leaf KInteger 1)]%Z []
    eq_refl eq_refl eq_refl eq_refl ["a"] (KInteger, 1%Z) eq_refl).
Qed.

(** * Packages that are mixed up *)
Definition tx_named_like : list package :=
  [Package "geometry-core" [(TCdylib, "geometry")] "/ws/core"; Package "geometry" [(TLib, "geometry_old")] "/ws/old"].
Definition tx_two_versions : list package :=
  [Package "geometry" [(TLib, "geometry")] "/registry/geometry-2.0"; Package "geometry" [(TLib, "geometry")] "/registry/geometry-1.0"].
Lemma mixed_up : ~ (forall ps p l, In p ps -> library_of p = Some l ->
    (forall q, In q ps -> library_of q = Some l -> q = p) -> cargo_root ps l = Some (p_dir p)).
Proof.
  intros H. specialize (H tx_named_like (Package "geometry-core" [(TCdylib, "geometry")] "/ws/core") "geometry").
  cbn [In tx_named_like] in H. assert (E : cargo_root tx_named_like "geometry" = Some "/ws/core").
  { apply H; [now left | reflexivity |]. intros q [<- | [<- | []]]; [reflexivity |]. intros D. vm_compute in D. discriminate D. }
  vm_compute in E. discriminate E.
Qed.
Lemma order_matters : ~ (forall ps ps' n, Permutation ps ps' -> cargo_root ps n = cargo_root ps' n).
Proof.
  intros H. specialize (H tx_two_versions (rev tx_two_versions) "geometry" (Permutation_rev _)).
  vm_compute in H. discriminate H.
Qed.

(** * Numbers of another kind *)
Lemma other_number : ~ (forall files g layers crate o, get crate (overrides g) = Some o -> get_config_path layers crate = None ->
    (forall p v w, at_path p (Table (defaults g)) = Some v -> at_path p (Table o) = Some w ->
       (shape v = None <-> shape w = None)) ->
    exists t, get_config files g layers crate = Ok t).
Proof.
  intros H.
  destruct (H (fun _ => NoFile) (Global [("timeout", Leaf KInteger 1)] [("a", [("timeout", Leaf KFloat 15)])])%Z [] "a"
              [("timeout", Leaf KFloat 15)]%Z eq_refl eq_refl) as (t & T).
  - intros [| k p] v w V W; cbn in V, W.
    + injection V as <-. injection W as <-. cbn. split; auto.
    + destruct (String.eqb k "timeout"); [| discriminate V].
      destruct p as [| k' p]; cbn in V, W; [| discriminate V]. injection V as <-. injection W as <-. cbn. split; discriminate.
  - discriminate T.
Qed.
