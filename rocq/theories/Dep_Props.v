(** C69: parsing sources sees the crates and the features that cargo builds. *)
From Verif Require Import Dep_Spec Dep_Proofs Dep_Examples.
From Coq Require Import Permutation.

(** The search for crates ends, whatever depends on what. *)
Theorem C69_ends : forall cs o source, exists l, get_source_crates (enough cs source) cs o source = Some l.
Proof. exact terminates. Qed.
Print Assumptions C69_ends.

(** The crates parsed are those that dependencies lead to, that depend on uniffi themselves, that are not
    left out and that have a library. *)
Theorem C69_crates : forall cs o source fuel l, get_source_crates fuel cs o source = Some l ->
  forall name path, (exists fs, In (SourceCrate name path fs) l) <->
    exists n c, reached cs source n /\ get_crate cs n = Some c /\ name = c_name c /\ to_parse c path.
Proof. exact crates_found. Qed.
Print Assumptions C69_crates.

(** No crate is parsed twice. *)
Theorem C69_once_partial : forall cs o source fuel l, get_source_crates fuel cs o source = Some l ->
  exact cs source -> NoDup (map s_name l).
Proof. exact found_once. Qed.
Print Assumptions C69_once_partial.

(** Every crate with bindings that is linked into the library is parsed. *)
Theorem C69_linked_parsed : forall cs o source fuel l, get_source_crates fuel cs o source = Some l ->
  forall c path, linked cs o source c -> to_parse c path -> exists fs, In (SourceCrate (c_name c) path fs) l.
Proof. exact linked_found. Qed.
Print Assumptions C69_linked_parsed.

(** And no other, when every dependency is an ordinary one. *)
Theorem C69_parsed_linked_partial : forall cs o source fuel l, get_source_crates fuel cs o source = Some l ->
  forall name path fs, plain cs -> In (SourceCrate name path fs) l ->
  exists c, linked cs o source c /\ name = c_name c /\ to_parse c path.
Proof. exact found_linked. Qed.
Print Assumptions C69_parsed_linked_partial.

(** The features of a parsed crate: those asked for by name and, if wanted, what its default feature lists. *)
Theorem C69_features : forall cs o source fuel l, get_source_crates fuel cs o source = Some l ->
  forall name path fs, In (SourceCrate name path fs) l -> forall f, In f fs <->
  asked cs o source name f
  \/ (defaulted cs o source name /\ reached cs source name
      /\ exists c vs v, get_crate cs name = Some c /\ get "default" (c_features c) = Some vs /\ In v vs /\ f = text v).
Proof. exact features_found. Qed.
Print Assumptions C69_features.

(** No feature is on that cargo leaves off, when dependencies are ordinary. *)
Theorem C69_sound_partial : forall cs o source fuel l, get_source_crates fuel cs o source = Some l ->
  forall name path fs f c, plain cs -> exact cs source -> In (SourceCrate name path fs) l -> In f fs ->
  get_crate cs name = Some c -> reached cs source name ->
  active cs o source c f \/ exists v, f = text v /\ turns_on c "default" v /\ (forall g, v <> Feature g).
Proof. exact found_sound. Qed.
Print Assumptions C69_sound_partial.

(** The features are those that cargo turns on, when moreover only the default feature turns on others. *)
Theorem C69_agree_partial : forall cs o source fuel l, get_source_crates fuel cs o source = Some l ->
  forall name path fs c, plain cs -> exact cs source -> flat cs o -> In (SourceCrate name path fs) l ->
  get_crate cs name = Some c -> reached cs source name ->
  forall f, f <> "default" -> (In f fs <-> active cs o source c f).
Proof. exact found_exact. Qed.
Print Assumptions C69_agree_partial.

(** A feature turned on by a feature is missed. *)
Theorem C69_chain_refuted : ~ (forall cs o source fuel l name path fs c f, plain cs -> exact cs source ->
  get_source_crates fuel cs o source = Some l -> In (SourceCrate name path fs) l -> get_crate cs name = Some c ->
  active cs o source c f -> f <> "default" -> In f fs).
Proof. exact chain_missed. Qed.
Print Assumptions C69_chain_refuted.

(** A feature of a dependency turned on by a feature is missed. *)
Theorem C69_forward_refuted : ~ (forall cs o source fuel l name path fs c f, plain cs -> exact cs source ->
  (forall c f g, In c cs -> turns_on c f (Feature g) -> f = "default") ->
  get_source_crates fuel cs o source = Some l -> In (SourceCrate name path fs) l -> get_crate cs name = Some c ->
  active cs o source c f -> f <> "default" -> In f fs).
Proof. exact forward_missed. Qed.
Print Assumptions C69_forward_refuted.

(** Crates that only tests use are parsed. *)
Theorem C69_tests_refuted : ~ (forall cs o source fuel l name path fs c, exact cs source ->
  get_source_crates fuel cs o source = Some l -> In (SourceCrate name path fs) l -> get_crate cs name = Some c ->
  linked cs o source c).
Proof. exact tests_parsed. Qed.
Print Assumptions C69_tests_refuted.

(** Features that only tests turn on are taken to be on. *)
Theorem C69_tests_features_refuted : ~ (forall cs o source fuel l name path fs c f, exact cs source ->
  get_source_crates fuel cs o source = Some l -> In (SourceCrate name path fs) l -> get_crate cs name = Some c ->
  linked cs o source c -> In f fs -> In f (map fst (c_features c)) -> active cs o source c f).
Proof. exact tests_features. Qed.
Print Assumptions C69_tests_features_refuted.

(** `src:my_app` finds the package `my-app` but loses its features. *)
Theorem C69_spelling_refuted : ~ (forall cs o source source' fuel l l', underscore source = underscore source' ->
  get_source_crates fuel cs o source = Some l -> get_source_crates fuel cs o source' = Some l' -> l = l').
Proof. exact spelling. Qed.
Print Assumptions C69_spelling_refuted.

(** A crate is parsed under the name of its library, when that is the usual one: the name of the package
    with underscores for hyphens. *)
Theorem C69_library_name_partial : forall cs s c n path,
  get_crate cs (s_name s) = Some c -> library_of c n path -> n = underscore (c_name c) -> parsed_under s = n.
Proof. exact library_named. Qed.
Print Assumptions C69_library_name_partial.

(** A crate whose library has a name of its own is parsed under the name of the package. *)
Theorem C69_library_name_refuted : ~ (forall cs o source fuel l s c k n path, exact cs source ->
  get_source_crates fuel cs o source = Some l -> In s l -> get_crate cs (s_name s) = Some c -> c_targets c = [(k, (n, path))] ->
  parsed_under s = underscore n).
Proof. exact library_names. Qed.
Print Assumptions C69_library_name_refuted.

(** A crate that does not exist is found, as an empty list. *)
Theorem C69_unknown_refuted : ~ (forall cs o source fuel l,
  get_source_crates fuel cs o source = Some l -> get_crate cs source = None -> l <> []).
Proof. exact unknown_crate. Qed.
Print Assumptions C69_unknown_refuted.

(** With two versions of a package the order in which cargo lists them decides which is parsed. *)
Theorem C69_versions_refuted : ~ (forall cs cs' o source fuel l, Permutation cs cs' ->
  get_source_crates fuel cs o source = Some l -> get_source_crates fuel cs' o source = Some l).
Proof. exact versions. Qed.
Print Assumptions C69_versions_refuted.
