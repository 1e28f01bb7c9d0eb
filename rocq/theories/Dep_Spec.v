(** What cargo builds. *)
From Verif Require Export Dep_Model.

(** The crates and features in the build of a library: what is linked into it, the dependencies used, and
    the features that are on (the Cargo reference, "Features" and "Specifying dependencies"). *)
Section Cargo.
Context (cs : list crate) (o : options) (source : string).
Definition chosen (f : string) : Prop := all_features o = true \/ In f (o_features o).
Definition turns_on (c : crate) (f : string) (v : fvalue) : Prop :=
  exists vs, get f (c_features c) = Some vs /\ In v vs.
Inductive linked : crate -> Prop :=
  | linked_source c : get_crate cs source = Some c -> linked c
  | linked_dep c d e : used c d -> get_crate cs (dep_name d) = Some e -> linked e
with used : crate -> dependency -> Prop :=
  | used_plain c d : linked c -> In d (c_deps c) -> dep_of d = Normal -> dep_here d = true -> dep_optional d = false -> used c d
  | used_optional c d f v : linked c -> In d (c_deps c) -> dep_of d = Normal -> dep_here d = true ->
      active c f -> turns_on c f v -> v = OnDep (dep_name d) \/ (exists g, v = DepFeature (dep_name d) g false) -> used c d
with active : crate -> string -> Prop :=
  | active_chosen c f : get_crate cs source = Some c -> chosen f -> In f (map fst (c_features c)) -> active c f
  | active_default c : get_crate cs source = Some c -> no_default_features o = false -> active c "default"
  | active_dep c d e f : used c d -> get_crate cs (dep_name d) = Some e -> In f (dep_features d) -> active e f
  | active_dep_default c d e : used c d -> get_crate cs (dep_name d) = Some e -> dep_defaults d = true -> active e "default"
  | active_feature c f g : active c f -> turns_on c f (Feature g) -> active c g
  | active_forward c f d e g weak : active c f -> turns_on c f (DepFeature (dep_name d) g weak) -> used c d ->
      get_crate cs (dep_name d) = Some e -> active e g.

(** The names that following dependencies reaches. *)
Inductive reached : string -> Prop :=
  | reached_source : reached source
  | reached_dep n c d : reached n -> get_crate cs n = Some c -> In d (c_deps c) -> reached (dep_name d).

(** The library of a crate: the first of its targets that cargo builds as one. *)
Definition library_kind (k : target_kind) : Prop := k = TLib \/ k = TRlib \/ k = TCdylib \/ k = TStaticlib.
Definition library_of (c : crate) (name path : string) : Prop :=
  exists before k after, c_targets c = before ++ (k, (name, path)) :: after /\ library_kind k
    /\ forall k' t, In (k', t) before -> ~ library_kind k'.
(** A crate with bindings: it depends on uniffi, is not left out and has a library. *)
Definition to_parse (c : crate) (path : string) : Prop :=
  (exists d, In d (c_deps c) /\ dep_name d = "uniffi") /\ c_skip c = false /\ exists name, library_of c name path.
(** Features asked for by a dependency, or chosen for the crate itself; default features wanted. *)
Definition asked (name f : string) : Prop :=
  (exists n c d, reached n /\ get_crate cs n = Some c /\ In d (c_deps c) /\ dep_name d = name /\ In f (dep_features d))
  \/ (name = source /\ exists c, get_crate cs source = Some c /\ f <> "default" /\ In f (map fst (c_features c)) /\ chosen f).
Definition defaulted (name : string) : Prop :=
  (exists n c d, reached n /\ get_crate cs n = Some c /\ In d (c_deps c) /\ dep_name d = name /\ dep_defaults d = true)
  \/ (name = source /\ (exists c, get_crate cs source = Some c) /\ no_default_features o = false).
(** Packages are named exactly, and no two have one name. *)
Definition exact : Prop := forall n c, reached n -> get_crate cs n = Some c -> c_name c = n.
(** No dependency is for development, for building, for another target or optional. *)
Definition plain : Prop := forall c d, In c cs -> In d (c_deps c) ->
  dep_of d = Normal /\ dep_here d = true /\ dep_optional d = false.
(** No feature turns on another, except that the default ones are turned on directly. *)
Definition flat : Prop :=
  (forall c f v, In c cs -> turns_on c f v -> f = "default" /\ exists g, v = Feature g /\ g <> "default")
  /\ (forall c d, In c cs -> In d (c_deps c) -> ~ In "default" (dep_features d))
  /\ (no_default_features o = false \/ ~ chosen "default").
End Cargo.
