(** Statements about looking names up in Rust sources (C56). *)
From Verif Require Import Base Meta_Types Path_Types Path_Spec Path_Model.

Definition answer (o : option rpath) : out rpath := match o with Some q => Found q | None => Fail NotFound end.
Definition from_places (r : ir) (qs : list query) : Prop :=
  forall self p n, In (self, p, n) qs -> place r self.

(** How deep lookups can be inside each other: as many as there are names to look up in modules. *)
Definition path_names (it : item) : list str :=
  match i_kind it with KUse p | KGlob p | KRemote p => segs p | _ => [] end.
Definition all_names (r : ir) (qs : list query) : list str :=
  flat_map (fun e => flat_map path_names (snd e)) (mods r) ++
  flat_map (fun q => match q with (_, p, _) => segs p end) qs.
Definition depth_bound (r : ir) (qs : list query) : nat :=
  2 + length (mods r) * length (all_names r qs) * 4.

Definition ends_statement : Prop :=
  forall r qs d, (depth_bound r qs <= d)%nat -> exists os c, session r d qs fresh = Some (os, c).
(** Whatever was looked up before, a found item is in its place and is what the path may refer to. *)
Definition sound_statement : Prop :=
  forall r d qs os c, tree r -> from_places r qs -> session r d qs fresh = Some (os, c) ->
    Forall2 (fun (q : query) o => match q with (self, p, n) =>
      forall i, o = Found i -> place r i /\ may_refer r self p n i end) qs os.
(** Whatever was looked up before, a path that refers to something is found to refer to just that. *)
Definition found_statement : Prop :=
  forall r d qs os c, tree r -> from_places r qs -> session r d qs fresh = Some (os, c) ->
    Forall2 (fun (q : query) o => match q with (self, p, n) =>
      forall i, refers r self p n i -> o = answer i end) qs os.
(** A name declared twice is never taken for one of the two. *)
Definition twice_statement : Prop :=
  forall r d qs os c, tree r -> from_places r qs -> session r d qs fresh = Some (os, c) ->
    Forall2 (fun (q : query) o => match q with (self, p, n) =>
      forall m x a b l, segs p = [x] -> lead p = false -> reserved x = false -> top_module self = Some m ->
        in_udl r m x n = [] ->
        (described r m x n = [] /\ declared r m x n = a :: b :: l) \/ described r m x n = a :: b :: l ->
        forall i, o <> Found i end) qs os.
(** Going by meanings gives one answer. *)
Definition one_meaning_statement : Prop :=
  forall r self p n a b, tree r -> place r self -> refers r self p n a -> refers r self p n b -> a = b.

(** *** Statements that do not hold *)
(** What was looked up before does not matter. *)
Definition independent_statement : Prop :=
  forall r d qs q os o c o' c', tree r -> from_places r (qs ++ [q]) ->
    session r d (qs ++ [q]) fresh = Some (os ++ [o], c) -> session r d [q] fresh = Some ([o'], c') -> o = o'.
(** With nothing looked up before, what a path may refer to is not reported missing. *)
Definition not_missing_statement : Prop :=
  forall r d self p n i o c, tree r -> place r self -> may_refer r self p n i ->
    lookup r d self p n fresh = Some (o, c) -> o <> Fail NotFound.
(** The same for sources without globs. *)
Definition without_globs (r : ir) : Prop :=
  forall m it p, In it (items_of r m) -> i_kind it <> KGlob p.
Definition not_missing_without_globs_statement : Prop :=
  forall r d self p n i o c, tree r -> place r self -> without_globs r -> may_refer r self p n i ->
    lookup r d self p n fresh = Some (o, c) -> o <> Fail NotFound.
(** [self::x] is what [x] is declared to be in the module. *)
Definition self_statement : Prop :=
  forall r d self m x n it o c, tree r -> place r self -> top_module self = Some m ->
    declared r m x n = [it] -> means r self x n (Some (it :: self)) ->
    lookup r d self (Path false [S_ "self"; x]) n fresh = Some (o, c) -> o = Found (it :: self).
(** What is found can be seen from where it was looked up: it is public, or in a module around. *)
Definition can_see (self q : rpath) : Prop :=
  match q with
  | it :: up => i_vis it = Public \/ exists inner, self = inner ++ up
  | [] => True
  end.
Definition visible_statement : Prop :=
  forall r d self p n i c, tree r -> place r self ->
    lookup r d self p n fresh = Some (Found i, c) -> can_see self i.
(** What is found as a macro is a macro. *)
Definition macro_statement : Prop :=
  forall r d self p it q c, tree r -> place r self ->
    lookup r d self p NsMacro fresh = Some (Found (it :: q), c) -> exists x, i_kind it = KStd (StdMacro x).
(** No lookup panics. *)
Definition no_panic_statement : Prop :=
  forall r d self p n o c, tree r -> place r self -> lookup r d self p n fresh = Some (o, c) -> o <> Fail Crash.
