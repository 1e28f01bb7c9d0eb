(** Which crates are parsed for [src:crate], and with which features: uniffi_bindgen/src/cargo_metadata.rs. *)
From Verif Require Export Tml_Model.

(** * What [cargo metadata] says *)
(** A dependency: under the name of the package (renaming is left out), its kind, whether it is optional,
    whether its target condition holds here, the features asked for and whether the default ones are. *)
Inductive dep_kind := Normal | Development | Building.
Record dependency := Dependency { dep_name : string; dep_of : dep_kind; dep_optional : bool; dep_here : bool;
                                  dep_features : list string; dep_defaults : bool }.
(** What a feature turns on: a feature of the package ([f]), an optional dependency ([dep:d]) or a feature
    of a dependency ([d/f], [d?/f]). *)
Inductive fvalue := Feature (f : string) | OnDep (d : string) | DepFeature (d f : string) (weak : bool).
Definition text (v : fvalue) : string :=
  match v with
  | Feature f => f
  | OnDep d => ("dep:" ++ d)%string
  | DepFeature d f weak => (d ++ (if weak then "?/" else "/") ++ f)%string
  end.
(** [c_skip]: [package.metadata.uniffi.skip_parsing].  A target: its kind, its name and its main file. *)
Record crate := Crate { c_name : string; c_features : list (string * list fvalue); c_deps : list dependency;
                        c_targets : list (target_kind * (string * string)); c_skip : bool }.
(** uniffi_bindgen/src/bindgen_paths.rs l.94-101 [CargoMetadataOptions] (without [no_deps], which only makes
    the list of packages shorter). *)
Record options := Options { no_default_features : bool; all_features : bool; o_features : list string }.
(** l.104-108. *)
Record source_crate := SourceCrate { s_name : string; s_path : string; s_features : list string }.

(** l.65-67 [get_package]: hyphens are underscores, and the last of a name stays in the map. *)
Definition get_crate (cs : list crate) (n : string) : option crate :=
  find (fun c => String.eqb (underscore (c_name c)) (underscore n)) (rev cs).
(** l.192-202 [should_parse_package]. *)
Definition should_parse (c : crate) : bool :=
  existsb (fun d => String.eqb (dep_name d) "uniffi") (c_deps c) && negb (c_skip c).
(** l.204-213 [find_src_lib]. *)
Definition find_src_lib (c : crate) : option string :=
  option_map (fun t => snd (snd t))
    (find (fun t => match fst t with TLib | TRlib | TCdylib | TStaticlib => true | _ => false end) (c_targets c)).
Definition mem (n : string) (l : list string) : bool := existsb (String.eqb n) l.

(** * [get_source_crates], l.94-189 *)
(** The maps from crates to sets of features are sets of pairs; the order of a set is not modelled. *)
Record state := State {
  todo : list string;                        (* todo_stack, the top first *)
  seen : list string;
  feature_map : list (string * string);
  default_feature_map : list (string * list string);
  enable_default_features : list string;
  found : list (string * string) }.
(** l.114-117. *)
Definition found_in (c : crate) : list (string * string) :=
  if should_parse c then match find_src_lib c with Some path => [(c_name c, path)] | None => [] end else [].
(** l.119-124. *)
Definition asked_in (c : crate) : list (string * string) :=
  flat_map (fun d => map (fun f => (dep_name d, f)) (dep_features d)) (c_deps c).
(** l.126-131. *)
Definition defaults_in (n : string) (c : crate) : list (string * list string) :=
  match get "default" (c_features c) with Some vs => [(n, map text vs)] | None => [] end.
(** l.132-152. *)
Definition selected_in (o : options) (c : crate) : list string :=
  filter (fun f => all_features o || mem f (o_features o))
    (filter (fun f => negb (String.eqb f "default")) (map fst (c_features c))).
Definition asked_of (o : options) (source n : string) (c : crate) : list (string * string) :=
  asked_in c ++ (if String.eqb n source then map (fun f => (n, f)) (selected_in o c) else []).
(** l.153-163. *)
Definition enabled_in (o : options) (source n : string) (c : crate) : list string :=
  (if String.eqb n source && negb (no_default_features o) then [n] else [])
  ++ map dep_name (filter dep_defaults (c_deps c)).
(** l.107-164: one turn. *)
Definition visit (cs : list crate) (o : options) (source n : string) (rest : list string) (st : state) : state :=
  if mem n (seen st) then State rest (seen st) (feature_map st) (default_feature_map st) (enable_default_features st) (found st)
  else
    match get_crate cs n with
    | None => State rest (n :: seen st) (feature_map st) (default_feature_map st) (enable_default_features st) (found st)
    | Some c =>
        State (rev (map dep_name (c_deps c)) ++ rest) (n :: seen st)
          (feature_map st ++ asked_of o source n c)
          (default_feature_map st ++ defaults_in n c)
          (enable_default_features st ++ enabled_in o source n c)
          (found st ++ found_in c)
    end.
(** The [while] loop, with at most [fuel] turns. *)
Fixpoint explore (fuel : nat) (cs : list crate) (o : options) (source : string) (st : state) : option state :=
  match todo st with
  | [] => Some st
  | n :: rest => match fuel with 0 => None | S fuel => explore fuel cs o source (visit cs o source n rest st) end
  end.
(** l.166-188. *)
Definition features_for (st : state) (name : string) : list string :=
  map snd (filter (fun nf => String.eqb name (fst nf)) (feature_map st))
  ++ (if mem name (enable_default_features st)
      then match get name (default_feature_map st) with Some fs => fs | None => [] end else []).
Definition finish (st : state) : list source_crate :=
  map (fun '(name, path) => SourceCrate name path (features_for st name)) (found st).
Definition start (source : string) : state := State [source] [] [] [] [] [].
Definition get_source_crates (fuel : nat) (cs : list crate) (o : options) (source : string) : option (list source_crate) :=
  option_map finish (explore fuel cs o source (start source)).
(** Turns enough for any set of packages (see the proofs). *)
Definition names_in (cs : list crate) (source : string) : list string :=
  source :: flat_map (fun c => map dep_name (c_deps c)) cs.
Definition pushed (cs : list crate) (n : string) : nat :=
  match get_crate cs n with Some c => length (c_deps c) | None => 0 end.
Definition enough (cs : list crate) (source : string) : nat :=
  S (list_sum (map (pushed cs) (names_in cs source))).
(** uniffi_bindgen/src/loader.rs l.84-85 and uniffi_parse_rs/src/ir.rs l.56: the name the crate is parsed under. *)
Definition parsed_under (s : source_crate) : string := underscore (s_name s).
