(** Statements about conditional compilation in the source-reading front end (C57). *)
From Verif Require Import Base Meta_Types Cfg_Types Cfg_Spec Cfg_Model.

Definition reach (o : option (list out)) : option (list out) :=
  match o with Some xs => Some (emitted_all xs) | None => None end.

(** A predicate of known options has the truth the compiler gives it. *)
Definition predicate_statement : Prop :=
  forall e c p, agrees e c -> plain c p = true -> check e p = Some (holds c p).
(** What carries attributes is kept exactly when the compiler keeps it, with the attributes that the
    compiler leaves on it. *)
Definition attributes_statement : Prop :=
  forall e c a, agrees e c -> tame c a = true ->
    parse_attrs e a = Some (if present c a then Some (left_over c a) else None).
(** Reading the sources gives the bindings that reading what the compiler compiles would give. *)
Definition same_bindings_statement : Prop :=
  forall e c ds, agrees e c -> forallb (tame_decl c) ds = true ->
    reach (read_all e ds) = reach (read_all e (compiled c ds)).
(** And the same names to look up. *)
Definition same_names_statement : Prop :=
  forall e c ds, agrees e c -> forallb (tame_decl c) ds = true -> forallb (tame_names c) ds = true ->
    read_all e ds = read_all e (compiled c ds).
(** What the compiler compiles is free of conditions, so the two statements above do compare with
    something settled. *)
Fixpoint free_decl (d : decl) : bool :=
  match d with
  | DFn f => (free (f_attrs f) && free_parts (f_args f))%bool
  | DStruct a _ fs => (free a && free_parts fs)%bool
  | DEnum a _ vs => (free a && forallb (fun v => free (v_attrs v) && free_parts (v_fields v)) vs)%bool
  | DTrait a _ fs => (free a && forallb (fun f => free (f_attrs f) && free_parts (f_args f)) fs)%bool
  | DImpl a _ _ fs => (free a && forallb (fun f => free (f_attrs f) && free_parts (f_args f)) fs)%bool
  | DMod a i _ ds =>
      (free a && match i with Some i => free i | None => true end &&
       (fix go l := match l with [] => true | x :: l => free_decl x && go l end) ds)%bool
  | DUse a _ | DType a _ | DMacro a _ _ => free a
  end.
(** [cfg_attr] with nothing to apply is an error in Rust. *)
Fixpoint proper_meta (m : meta) : bool :=
  match m with
  | MList n l =>
      if bytes_eqb n (S_ "cfg_attr") then match l with _ :: r => forallb proper_meta r | [] => false end
      else true
  | m => negb (conditional m)
  end.
Definition proper (a : list meta) : bool := forallb proper_meta a.
Definition settles_statement : Prop :=
  forall c a, proper a = true -> free (left_over c a) = true.

(** *** Statements that do not hold *)
(** Predicates Rust accepts: whatever the options' names. *)
Fixpoint valid (m : meta) : bool :=
  match m with
  | MWord n => negb (bytes_eqb n (S_ "all") || bytes_eqb n (S_ "any") || bytes_eqb n (S_ "not"))%bool
  | MVal n (Vstr _) => negb (bytes_eqb n (S_ "all") || bytes_eqb n (S_ "any") || bytes_eqb n (S_ "not"))%bool
  | MVal _ Vother => false
  | MList n l =>
      if bytes_eqb n (S_ "all") then forallb valid l
      else if bytes_eqb n (S_ "any") then forallb valid l
      else if bytes_eqb n (S_ "not") then match l with [p] => valid p | _ => false end
      else false
  end.
Definition every_predicate_statement : Prop :=
  forall e c p, agrees e c -> valid p = true -> check e p = Some (holds c p).
(** In one direction at least: what the compiler leaves out is left out. *)
Definition never_too_much_statement : Prop :=
  forall e c p, agrees e c -> valid p = true -> check e p = Some true -> holds c p = true.
Definition constant_statement : Prop :=
  forall e c, agrees e c -> check e (MWord (S_ "true")) = Some (holds c (MWord (S_ "true"))).
Definition no_error_statement : Prop :=
  forall e c p, agrees e c -> valid p = true -> exists b, check e p = Some b.

(** A condition brought in by a [cfg_attr] counts. *)
Fixpoint tame_nested (c : conf) (m : meta) : bool :=
  match m with
  | MList n l =>
      if bytes_eqb n (S_ "cfg") then match l with [p] => plain c p | _ => false end
      else if bytes_eqb n (S_ "cfg_attr")
      then match l with p :: r => (plain c p && forallb (tame_nested c) r)%bool | [] => false end
      else true
  | m => negb (conditional m)
  end.
Definition nested_statement : Prop :=
  forall e c a, agrees e c -> forallb (tame_nested c) a = true ->
    parse_attrs e a = Some (if present c a then Some (left_over c a) else None).
(** Conditions count on arguments, on macro calls, at the head of files, on implementations of the
    callback error, on documentation of modules; on [use] and on types. *)
Definition arguments_statement : Prop :=
  forall e c f, agrees e c -> tame c (f_attrs f) = true -> tame_parts c (f_args f) = true ->
    reach (read_all e [DFn f]) = reach (read_all e (compiled c [DFn f])).
Definition macros_statement : Prop :=
  forall e c a m n, agrees e c -> tame c a = true ->
    reach (read_all e [DMacro a m n]) = reach (read_all e (compiled c [DMacro a m n])).
Definition file_heads_statement : Prop :=
  forall e c a i n ds, agrees e c -> tame c a = true -> tame c i = true -> forallb (tame_decl c) ds = true ->
    reach (read_all e [DMod a (Some i) n ds]) = reach (read_all e (compiled c [DMod a (Some i) n ds])).
Definition callback_error_statement : Prop :=
  forall e c a n, agrees e c -> tame c a = true ->
    reach (read_all e [DImpl a true n []]) = reach (read_all e (compiled c [DImpl a true n []])).
Definition module_docs_statement : Prop :=
  forall e c a n, agrees e c -> tame c a = true ->
    reach (read_all e [DMod a None n []]) = reach (read_all e (compiled c [DMod a None n []])).
Definition uses_statement : Prop :=
  forall e c a n, agrees e c -> tame c a = true ->
    read_all e [DUse a n] = read_all e (compiled c [DUse a n]).
Definition aliases_statement : Prop :=
  forall e c a n, agrees e c -> tame c a = true ->
    read_all e [DType a n] = read_all e (compiled c [DType a n]).
Definition absent_types_statement : Prop :=
  forall e c a n fs, agrees e c -> tame c a = true -> tame_parts c fs = true ->
    read_all e [DStruct a n fs] = read_all e (compiled c [DStruct a n fs]).
