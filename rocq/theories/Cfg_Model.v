(** The front end's conditional compilation and the places it is applied.
    [None] is an error of the parser (syn::Error), which ends the run. *)
From Verif Require Import Base Meta_Types Cfg_Types.

(** compile_env.rs l.127-135. *)
Definition meta_str (m : meta) : option str := match m with MVal _ (Vstr s) => Some s | _ => None end.
Definition compare (s : str) (m : meta) : option bool :=
  match meta_str m with Some v => Some (bytes_eqb s v) | None => None end.

(** compile_env.rs l.69-124; both loops stop at the first argument that decides. *)
Fixpoint check (e : env) (m : meta) : option bool :=
  if bytes_eqb (mname m) (S_ "all") then
    match m with
    | MList _ l => (fix go l := match l with
        | [] => Some true
        | x :: l => match check e x with Some true => go l | Some false => Some false | None => None end
        end) l
    | _ => None
    end
  else if bytes_eqb (mname m) (S_ "any") then
    match m with
    | MList _ l => (fix go l := match l with
        | [] => Some false
        | x :: l => match check e x with Some true => Some true | Some false => go l | None => None end
        end) l
    | _ => None
    end
  else if bytes_eqb (mname m) (S_ "not") then
    match m with
    | MList _ [x] => match check e x with Some b => Some (negb b) | None => None end
    | _ => None
    end
  else if bytes_eqb (mname m) (S_ "feature") then
    match meta_str m with Some v => Some (existsb (bytes_eqb v) (e_features e)) | None => None end
  else if bytes_eqb (mname m) (S_ "target_arch") then compare (e_arch e) m
  else if bytes_eqb (mname m) (S_ "target_os") then compare (e_os e) m
  else if bytes_eqb (mname m) (S_ "target_env") then compare (e_env e) m
  else if bytes_eqb (mname m) (S_ "target_vendor") then compare (e_vendor e) m
  else if bytes_eqb (mname m) (S_ "target_endian") then
    match meta_str m with
    | Some v => Some (match e_little e with
        | Some false => bytes_eqb v (S_ "big")
        | Some true => bytes_eqb v (S_ "little")
        | None => false
        end)
    | None => None
    end
  else if bytes_eqb (mname m) (S_ "target_pointer_width") then
    match e_width e with Some w => compare w m | None => Some false end
  else Some false.

(** compile_env.rs l.37-66. [Some None]: a [cfg] does not match. *)
Fixpoint parse_attrs (e : env) (a : list meta) : option (option (list meta)) :=
  match a with
  | [] => Some (Some [])
  | m :: a =>
      if bytes_eqb (mname m) (S_ "cfg") then
        match m with
        | MList _ [p] =>
            match check e p with
            | Some true => parse_attrs e a
            | Some false => Some None
            | None => None
            end
        | _ => None
        end
      else if bytes_eqb (mname m) (S_ "cfg_attr") then
        match m with
        | MList _ (p :: r) =>
            match check e p with
            | Some true =>
                match parse_attrs e a with Some (Some ms) => Some (Some (r ++ ms)) | o => o end
            | Some false => parse_attrs e a
            | None => None
            end
        | _ => None
        end
      else match parse_attrs e a with Some (Some ms) => Some (Some (m :: ms)) | o => o end
  end.

(** Loops that keep what [f] keeps: [f] fails, leaves out or gives. *)
Fixpoint collect {A B} (f : A -> option (option B)) (l : list A) : option (list B) :=
  match l with
  | [] => Some []
  | x :: l =>
      match f x with
      | None => None
      | Some None => collect f l
      | Some (Some y) => match collect f l with Some ys => Some (y :: ys) | None => None end
      end
  end.

(** attrs/mod.rs l.36-82 and l.103-128, with the usual spelling of the paths instead of their lookup
    (C56 is about those). *)
Definition is_export (m : meta) : bool := bytes_eqb (mname m) (S_ "uniffi::export").
Definition derives (d : string) (m : meta) : bool :=
  match m with
  | MList n l => (bytes_eqb n (S_ "derive") && existsb (fun x => bytes_eqb (mname x) (S_ ("uniffi::" ++ d))) l)%bool
  | _ => false
  end.
Definition is_ctor (m : meta) : bool := bytes_eqb (mname m) (S_ "uniffi::constructor").
Definition is_doc (m : meta) : bool := bytes_eqb (mname m) (S_ "doc").

(** attrs/records.rs l.72-103, attrs/enums.rs l.132-157: nothing but [parse_attrs] leaves them out. *)
Definition parse_part (e : env) (p : part) : option (option xpart) :=
  match parse_attrs e (p_attrs p) with
  | Some (Some ms) => Some (Some (XPart ms (p_name p)))
  | Some None => Some None
  | None => None
  end.
(** records.rs l.29-35, enums.rs l.84-90. *)
Definition parse_parts (e : env) : list part -> option (list xpart) := collect (parse_part e).
(** enums.rs l.33-39 and l.76-98. *)
Definition parse_variant (e : env) (v : variant) : option (option xvariant) :=
  match parse_attrs e (v_attrs v) with
  | Some (Some ms) =>
      match parse_parts e (v_fields v) with
      | Some fs => Some (Some (XVariant ms (v_name v) fs))
      | None => None
      end
  | Some None => Some None
  | None => None
  end.
(** Arguments are taken as they are (functions.rs l.36-58, objects.rs, traits.rs: no attribute of an
    argument is read). *)
Definition take_func (ms : list meta) (f : func) : xfunc := XFunc ms (f_name f) (map p_name (f_args f)).
(** attrs/callables.rs l.76-108 (methods), used by traits.rs l.35-41. *)
Definition parse_method (e : env) (f : func) : option (option xfunc) :=
  match parse_attrs e (f_attrs f) with
  | Some (Some ms) => Some (Some (take_func ms f))
  | Some None => Some None
  | None => None
  end.
(** impls.rs l.26-34 with attrs/callables.rs l.119-160: first as a constructor, then as a method.
    [inl] is a constructor. *)
Definition parse_member (e : env) (f : func) : option (option (xfunc + xfunc)) :=
  match parse_attrs e (f_attrs f) with
  | None => None
  | Some None => Some None
  | Some (Some ms) =>
      if existsb is_ctor ms then Some (Some (inl (take_func ms f)))
      else Some (Some (inr (take_func ms f)))
  end.
Fixpoint lefts {A B} (l : list (A + B)) : list A :=
  match l with [] => [] | inl a :: l => a :: lefts l | inr _ :: l => lefts l end.
Fixpoint rights {A B} (l : list (A + B)) : list B :=
  match l with [] => [] | inl _ :: l => rights l | inr b :: l => b :: rights l end.

(** One declaration: ir.rs l.216-279 for most, modules.rs l.115-155 for modules, l.173-196 for the rest.
    Items that are read late come after the others in the code; the order reaches no output (the
    metadata is a sorted set), and is kept here. A missing file is not modelled. *)
Fixpoint read (e : env) (d : decl) : option (list out) :=
  match d with
  | DFn f =>
      match parse_attrs e (f_attrs f) with
      | None => None
      | Some None => Some []
      | Some (Some ms) => Some (if existsb is_export ms then [XFn (take_func ms f)] else [])
      end
  | DStruct a n fs =>
      match parse_attrs e a with
      | None => None
      | Some None => Some [XOther n]
      | Some (Some ms) =>
          if existsb (derives "Record") ms then
            match parse_parts e fs with Some fs => Some [XRecord ms n fs] | None => None end
          else if existsb (derives "Object") ms then Some [XObject ms n]
          else Some [XOther n]
      end
  | DEnum a n vs =>
      match parse_attrs e a with
      | None => None
      | Some None => Some [XOther n]
      | Some (Some ms) =>
          if existsb (derives "Object") ms then Some [XObject ms n]
          else match existsb (derives "Enum") ms, existsb (derives "Error") ms with
          | false, false => Some [XOther n]
          | true, true => None
          | _, err => match collect (parse_variant e) vs with
                      | Some vs => Some [XEnum ms err n vs] | None => None end
          end
      end
  | DTrait a n fs =>
      match parse_attrs e a with
      | None => None
      | Some None => Some []
      | Some (Some ms) =>
          if existsb is_export ms then
            match collect (parse_method e) fs with Some fs => Some [XTrait ms n fs] | None => None end
          else Some []
      end
  | DImpl a cb n fs =>
      match parse_attrs e a with
      | None => None
      | Some None => Some (if cb then [XCallbackError n] else [])
      | Some (Some ms) =>
          if existsb is_export ms then
            match collect (parse_member e) fs with
            | Some fs => Some [XImpl ms n (lefts fs) (rights fs)] | None => None end
          else Some (if cb then [XCallbackError n] else [])
      end
  | DMod a i n ds =>
      match parse_attrs e a with
      | None => None
      | Some None => Some []
      | Some (Some _) =>
          match (fix go l := match l with
                 | [] => Some []
                 | x :: l => match read e x with
                             | Some xs => match go l with Some ys => Some (xs ++ ys) | None => None end
                             | None => None end
                 end) ds with
          | Some xs => Some [XMod (filter is_doc (match i with Some i => i | None => a end)) n xs]
          | None => None
          end
      end
  | DUse _ n => Some [XUse n]
  | DType _ n => Some [XType n]
  | DMacro _ McCustom n => Some [XCustom n]
  | DMacro _ McScaffolding n => Some [XScaffolding n]
  | DMacro _ McOther _ => Some []
  end.
(** modules.rs l.115-160 and ir.rs l.192-200. *)
Fixpoint read_all (e : env) (ds : list decl) : option (list out) :=
  match ds with
  | [] => Some []
  | x :: l => match read e x with
              | Some xs => match read_all e l with Some ys => Some (xs ++ ys) | None => None end
              | None => None end
  end.
