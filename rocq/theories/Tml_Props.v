(** C68: where the settings of a crate come from. *)
From Verif Require Import Tml_Spec Tml_Proofs Tml_Examples.
From Coq Require Import Permutation.

(** Two tables merged: a setting of the second stands, otherwise that of the first. *)
Theorem C68_merged : forall a b c p, proper (Table a) -> proper (Table b) -> merge_toml a b = Some c ->
  setting c p = match setting b p with Some s => Some s | None => setting a p end.
Proof. exact merge_setting. Qed.
Print Assumptions C68_merged.

(** They can be merged unless one has a table, or a value of another kind, where the other has a value. *)
Theorem C68_mergeable : forall a b, proper (Table a) -> proper (Table b) ->
  (merge_toml a b = None <-> clash (Table a) (Table b)).
Proof. intros a b A B. rewrite merge_toml_none. exact (merge_fails _ _ A B). Qed.
Print Assumptions C68_mergeable.

(** Each setting is that of the crate's section in the global file, otherwise that of the crate's own
    file, otherwise the default. *)
Theorem C68_strongest : forall files g layers crate t p,
  Forall (fun s => proper (Table s)) (sources files g layers crate) ->
  get_config files g layers crate = Ok t ->
  setting t p = first_setting (sources files g layers crate) p.
Proof. exact strongest. Qed.
Print Assumptions C68_strongest.

(** There is a configuration unless the crate's file is no TOML or two of the sources clash. *)
Theorem C68_fails : forall files g layers crate,
  Forall (fun s => proper (Table s)) (sources files g layers crate) ->
  (get_config files g layers crate = Err <-> unreadable files layers crate \/ some_clash (sources files g layers crate)).
Proof. exact failures. Qed.
Print Assumptions C68_fails.

(** The sections of the global file are read as they are written. *)
Theorem C68_sections : forall text_of dir d c, (d <> [] \/ c <> []) ->
  from_file text_of dir [("defaults", Table d); ("crates", Table (map (fun '(n, t) => (n, Table t)) c))] = Ok (Global d c, None).
Proof. exact sections_read. Qed.
Print Assumptions C68_sections.

(** Listed roots are taken from the directory of the global file. *)
Theorem C68_roots : forall text_of dir (r : list (string * Z)), r <> [] ->
  from_file text_of dir [("crate-roots", Table (map (fun '(n, z) => (n, Leaf KString z)) r))]
  = Ok (no_global, Some (map (fun '(n, z) => (n, join dir (text_of z))) r)).
Proof. exact roots_read. Qed.
Print Assumptions C68_roots.

(** An absolute root stands as it is; another is taken from the directory. *)
Theorem C68_paths : forall dir p, join dir (String "/" p) = String "/" p
  /\ (forall q, dir <> "" -> (forall r, q <> String "/" r) -> join dir q = (dir ++ "/" ++ q)%string)
  /\ (forall q, join "" q = q).
Proof. exact joined. Qed.
Print Assumptions C68_paths.

(** Any other section changes nothing. *)
Theorem C68_other_sections : forall text_of dir raw k v, ~ known k -> (exists s, known s /\ has s raw = true) ->
  from_file text_of dir (raw ++ [(k, v)]) = from_file text_of dir raw.
Proof. exact ignored_section. Qed.
Print Assumptions C68_other_sections.

(** A listed root decides where the configuration and the UDL files are, whatever cargo says. *)
Theorem C68_listed_partial : forall c r ps crate root, c <> BindgenJni -> get crate r = Some root ->
  get_crate_root (layers_of c (Some r) ps) crate = Some root
  /\ get_config_path (layers_of c (Some r) ps) crate = Some (join root "uniffi.toml")
  /\ forall udl, get_udl_path (layers_of c (Some r) ps) crate udl = Some (join (join root "src") (udl ++ ".udl")%string).
Proof. exact listed_first. Qed.
Print Assumptions C68_listed_partial.

(** A crate that is not listed is where cargo says. *)
Theorem C68_unlisted : forall c r ps crate, match r with Some r => get crate r = None | None => True end ->
  get_crate_root (layers_of c r ps) crate = cargo_root ps crate
  /\ get_config_path (layers_of c r ps) crate = option_map (fun root => join root "uniffi.toml") (cargo_root ps crate).
Proof. exact unlisted. Qed.
Print Assumptions C68_unlisted.

(** Cargo's answer is the directory of the package whose library has that name, if names do not clash. *)
Theorem C68_own_directory_partial : forall ps p l, told_apart ps -> In p ps -> library_of p = Some l ->
  cargo_root ps l = Some (p_dir p) /\ cargo_root ps (underscore l) = Some (p_dir p).
Proof. intros ps p l T I L. rewrite dashes. split; exact (own_directory ps p l T I L). Qed.
Print Assumptions C68_own_directory_partial.

(** The JNI command does not look in a listed root. *)
Theorem C68_jni_roots_refuted : ~ (forall text raw dir ps files crate g r root path own p s,
  from_file text dir raw = Ok (g, Some r) -> get crate r = Some root -> path = join root "uniffi.toml" -> files path = Parsed own ->
  get crate (overrides g) = None -> defaults g = [] -> setting own p = Some s ->
  exists t, configured text BindgenJni (Some (dir, raw)) ps files crate = Ok t /\ setting t p = Some s).
Proof. exact jni_roots. Qed.
Print Assumptions C68_jni_roots_refuted.

(** A global file of the old style is read, and every setting in it is dropped. *)
Theorem C68_dropped_refuted : ~ (forall text c dir raw ps files crate t p s,
  configured text c (Some (dir, raw)) ps files crate = Ok t -> setting raw p = Some s -> exists q, setting t q = Some s).
Proof. exact dropped_settings. Qed.
Print Assumptions C68_dropped_refuted.

(** The section of a crate must not be written with hyphens, although cargo's lookup takes them. *)
Theorem C68_hyphens_refuted : ~ (forall text c dir raw ps files g r n o t,
  from_file text dir raw = Ok (g, r) -> get n (overrides g) = Some o -> cargo_root ps n = cargo_root ps (underscore n) ->
  configured text c (Some (dir, raw)) ps files (underscore n) = Ok t -> forall p s, setting o p = Some s -> setting t p = Some s).
Proof. exact hyphens_differ. Qed.
Print Assumptions C68_hyphens_refuted.

(** A library gets the directory of a package that has its name, although that package is another. *)
Theorem C68_own_directory_refuted : ~ (forall ps p l, In p ps -> library_of p = Some l ->
  (forall q, In q ps -> library_of q = Some l -> q = p) -> cargo_root ps l = Some (p_dir p)).
Proof. exact mixed_up. Qed.
Print Assumptions C68_own_directory_refuted.

(** With two versions of a package in a build, the order in which cargo lists them decides. *)
Theorem C68_order_refuted : ~ (forall ps ps' n, Permutation ps ps' -> cargo_root ps n = cargo_root ps' n).
Proof. exact order_matters. Qed.
Print Assumptions C68_order_refuted.

(** An override with a fraction, for a default without one, is refused. *)
Theorem C68_numbers_refuted : ~ (forall files g layers crate o, get crate (overrides g) = Some o -> get_config_path layers crate = None ->
  (forall p v w, at_path p (Table (defaults g)) = Some v -> at_path p (Table o) = Some w -> (shape v = None <-> shape w = None)) ->
  exists t, get_config files g layers crate = Ok t).
Proof. exact other_number. Qed.
Print Assumptions C68_numbers_refuted.
