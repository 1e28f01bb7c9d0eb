(** Conditional compilation as the Rust reference defines it, without the front end's code.
    A compiler is given a set of options: names, and names with values. *)
From Verif Require Import Base Meta_Types Cfg_Types.

Definition conf := list (str * option str).
Definition ostr_eqb (a b : option str) : bool :=
  match a, b with Some a, Some b => bytes_eqb a b | None, None => true | _, _ => false end.
Definition set_in (c : conf) (k : str) (v : option str) : bool :=
  existsb (fun e => bytes_eqb (fst e) k && ostr_eqb (snd e) v)%bool c.

(** Truth of a predicate. What Rust rejects ([not] of two, numbers as values) counts as false. *)
Fixpoint holds (c : conf) (m : meta) : bool :=
  match m with
  | MWord n =>
      if bytes_eqb n (S_ "true") then true
      else if bytes_eqb n (S_ "false") then false else set_in c n None
  | MVal n (Vstr v) => set_in c n (Some v)
  | MVal _ Vother => false
  | MList n l =>
      if bytes_eqb n (S_ "all") then forallb (holds c) l
      else if bytes_eqb n (S_ "any") then existsb (holds c) l
      else if bytes_eqb n (S_ "not") then match l with [p] => negb (holds c p) | _ => false end
      else false
  end.

(** [cfg_attr(p, a, b)] stands for [a] and [b] when [p] holds and for nothing otherwise; what it stands
    for is looked at again. *)
Fixpoint expand (c : conf) (m : meta) : list meta :=
  match m with
  | MList n l =>
      if bytes_eqb n (S_ "cfg_attr")
      then match l with
           | [] => [m]
           | p :: r => if holds c p then flat_map (expand c) r else []
           end
      else [m]
  | m => [m]
  end.
Definition expand_all (c : conf) (a : list meta) : list meta := flat_map (expand c) a.

(** What carries a [cfg] that does not hold is not there. *)
Definition cfg_of (m : meta) : option (list meta) :=
  match m with MList n l => if bytes_eqb n (S_ "cfg") then Some l else None | _ => None end.
Definition passes (c : conf) (m : meta) : bool :=
  match cfg_of m with Some [p] => holds c p | Some _ => false | None => true end.
Definition present (c : conf) (a : list meta) : bool := forallb (passes c) (expand_all c a).
(** The attributes left once this is done. *)
Definition left_over (c : conf) (a : list meta) : list meta :=
  filter (fun m => match cfg_of m with Some _ => false | None => true end) (expand_all c a).

(** The sources the compiler goes on with: no [cfg] and no [cfg_attr] is left in them. *)
Definition settle {A} (attrs : A -> list meta) (keep : A -> A) (c : conf) (l : list A) : list A :=
  map keep (filter (fun x => present c (attrs x)) l).
Definition settle_parts (c : conf) : list part -> list part :=
  settle p_attrs (fun p => Part (left_over c (p_attrs p)) (p_name p)) c.
Definition settle_funcs (c : conf) : list func -> list func :=
  settle f_attrs (fun f => Func (left_over c (f_attrs f)) (f_name f) (settle_parts c (f_args f))) c.
Definition settle_variants (c : conf) : list variant -> list variant :=
  settle v_attrs (fun v => Variant (left_over c (v_attrs v)) (v_name v) (settle_parts c (v_fields v))) c.
Definition attrs_of (d : decl) : list meta :=
  match d with
  | DFn f => f_attrs f
  | DStruct a _ _ | DEnum a _ _ | DTrait a _ _ | DImpl a _ _ _ | DMod a _ _ _
  | DUse a _ | DType a _ | DMacro a _ _ => a
  end.
(** The attributes at the head of a module's file are the module's as well. *)
Definition there (c : conf) (d : decl) : bool :=
  (present c (attrs_of d) && match d with DMod _ (Some i) _ _ => present c i | _ => true end)%bool.
Fixpoint settled (c : conf) (d : decl) : decl :=
  match d with
  | DFn f => DFn (Func (left_over c (f_attrs f)) (f_name f) (settle_parts c (f_args f)))
  | DStruct a n fs => DStruct (left_over c a) n (settle_parts c fs)
  | DEnum a n vs => DEnum (left_over c a) n (settle_variants c vs)
  | DTrait a n fs => DTrait (left_over c a) n (settle_funcs c fs)
  | DImpl a cb n fs => DImpl (left_over c a) cb n (settle_funcs c fs)
  | DMod a i n ds =>
      DMod (left_over c a) (match i with Some i => Some (left_over c i) | None => None end) n
        ((fix go l := match l with
          | [] => []
          | x :: l => if there c x then settled c x :: go l else go l
          end) ds)
  | DUse a n => DUse (left_over c a) n
  | DType a n => DType (left_over c a) n
  | DMacro a m n => DMacro (left_over c a) m n
  end.
Fixpoint compiled (c : conf) (ds : list decl) : list decl :=
  match ds with
  | [] => []
  | x :: l => if there c x then settled c x :: compiled c l else compiled c l
  end.

(** The options a compiler sets for a target and features, as far as the front end can know them. *)
Definition told (e : env) (k v : str) : Prop :=
  (k = S_ "feature" /\ In v (e_features e)) \/
  (k = S_ "target_arch" /\ v = e_arch e) \/
  (k = S_ "target_os" /\ v = e_os e) \/
  (k = S_ "target_env" /\ v = e_env e) \/
  (k = S_ "target_vendor" /\ v = e_vendor e) \/
  (k = S_ "target_endian" /\
    ((e_little e = Some true /\ v = S_ "little") \/ (e_little e = Some false /\ v = S_ "big"))) \/
  (k = S_ "target_pointer_width" /\ e_width e = Some v).
Definition known : list str :=
  map S_ ["feature"; "target_arch"; "target_os"; "target_env"; "target_vendor"; "target_endian";
          "target_pointer_width"]%string.
Definition is_known (n : str) : bool := existsb (bytes_eqb n) known.
Definition agrees (e : env) (c : conf) : Prop :=
  forall k v, In k known -> (set_in c k (Some v) = true <-> told e k v).

(** Predicates of known options; of others only when they are not set. *)
Fixpoint plain (c : conf) (m : meta) : bool :=
  match m with
  | MWord n => (negb (is_known n) && negb (bytes_eqb n (S_ "all")) && negb (bytes_eqb n (S_ "any"))
                && negb (bytes_eqb n (S_ "not")) && negb (holds c m))%bool
  | MVal n (Vstr _) => (is_known n || (negb (bytes_eqb n (S_ "all")) && negb (bytes_eqb n (S_ "any"))
                && negb (bytes_eqb n (S_ "not")) && negb (holds c m)))%bool
  | MVal _ Vother => false
  | MList n l =>
      if bytes_eqb n (S_ "all") then forallb (plain c) l
      else if bytes_eqb n (S_ "any") then forallb (plain c) l
      else if bytes_eqb n (S_ "not") then match l with [p] => plain c p | _ => false end
      else false
  end.
(** Attributes that settle: such predicates only, and no [cfg] or [cfg_attr] inside a [cfg_attr]. *)
Definition conditional (m : meta) : bool :=
  (bytes_eqb (mname m) (S_ "cfg") || bytes_eqb (mname m) (S_ "cfg_attr"))%bool.
Definition tame_meta (c : conf) (m : meta) : bool :=
  match m with
  | MList n l =>
      if bytes_eqb n (S_ "cfg") then match l with [p] => plain c p | _ => false end
      else if bytes_eqb n (S_ "cfg_attr")
      then match l with
           | p :: r => (plain c p && forallb (fun m => negb (conditional m)) r)%bool
           | [] => false
           end
      else true
  | m => negb (conditional m)
  end.
Definition tame (c : conf) (a : list meta) : bool := forallb (tame_meta c) a.
Definition free (a : list meta) : bool := forallb (fun m => negb (conditional m)) a.
Definition free_parts (l : list part) : bool := forallb (fun p => free (p_attrs p)) l.
Definition tame_parts (c : conf) (l : list part) : bool := forallb (fun p => tame c (p_attrs p)) l.
Definition tame_funcs (c : conf) (l : list func) : bool :=
  forallb (fun f => tame c (f_attrs f) && free_parts (f_args f))%bool l.
Definition tame_variants (c : conf) (l : list variant) : bool :=
  forallb (fun v => tame c (v_attrs v) && tame_parts c (v_fields v))%bool l.
(** No documentation of a module hides in a [cfg_attr]. *)
Definition no_doc_inside (m : meta) : bool :=
  match m with
  | MList n (_ :: r) =>
      if bytes_eqb n (S_ "cfg_attr") then forallb (fun m => negb (bytes_eqb (mname m) (S_ "doc"))) r else true
  | _ => true
  end.
(** Sources where every condition stands where the front end looks: not on arguments, not on macro
    calls, not at the head of files, not on implementations of the callback error, and on [use] and
    [type] only when they matter to nobody. *)
Fixpoint tame_decl (c : conf) (d : decl) : bool :=
  match d with
  | DFn f => (tame c (f_attrs f) && free_parts (f_args f))%bool
  | DStruct a _ fs => (tame c a && tame_parts c fs)%bool
  | DEnum a _ vs => (tame c a && tame_variants c vs)%bool
  | DTrait a _ fs => (tame c a && tame_funcs c fs)%bool
  | DImpl a cb _ fs => (tame c a && tame_funcs c fs && (negb cb || present c a))%bool
  | DMod a i _ ds =>
      (tame c a && match i with Some i => free i | None => forallb no_doc_inside a end &&
       (fix go l := match l with [] => true | x :: l => tame_decl c x && go l end) ds)%bool
  | DUse a _ | DType a _ => true
  | DMacro a McOther _ => true
  | DMacro a _ _ => free a
  end.
(** The same for what only matters to the meaning of names: what is not a UniFFI item. *)
Fixpoint tame_names (c : conf) (d : decl) : bool :=
  match d with
  | DStruct a _ _ | DEnum a _ _ => present c a
  | DMod a i _ ds =>
      (fix go l := match l with [] => true | x :: l => tame_names c x && go l end) ds
  | DUse a _ | DType a _ => free a
  | _ => true
  end.

(** What reaches the bindings; the rest only serves to find out what names mean. *)
Fixpoint emitted (x : out) : list out :=
  match x with
  | XOther _ | XUse _ | XType _ => []
  | XMod d n xs => [XMod d n ((fix go l := match l with [] => [] | x :: l => emitted x ++ go l end) xs)]
  | x => [x]
  end.
Fixpoint emitted_all (xs : list out) : list out :=
  match xs with [] => [] | x :: l => emitted x ++ emitted_all l end.
