(** What it means that a library and its sources describe an item alike. *)
From Verif Require Import Base Utf8 Meta_Types Meta_Model Meta_Spec Src_Model.

(** A documentation comment that is there but empty says the same as none. *)
Definition like_doc (a b : option str) : Prop := get_or a [] = get_or b [].
(** The same name for the bindings and the same name in Rust. *)
Definition like_names (n : str) (o : option str) (n' : str) (o' : option str) : Prop :=
  n = n' /\ get_or o n = get_or o' n'.
(** A type with the same name, not necessarily by the same path. *)
Definition same_named (a b : ty) : Prop :=
  match a, b with
  | TRecord _ n, TRecord _ n' => n = n'
  | TEnum _ n, TEnum _ n' => n = n'
  | TObject _ n k, TObject _ n' k' => n = n' /\ k = k'
  | _, _ => a = b
  end.

Section Like.
(** How types are compared; the module the library says, and the one the sources say. *)
Variables (R : ty -> ty -> Prop) (mp mp' : str).

Definition like_param (a b : param) : Prop :=
  p_name a = p_name b /\ R (p_ty a) (p_ty b) /\ p_pass a = p_pass b /\ p_default a = p_default b.
Definition like_fn (f g : fn_meta) : Prop :=
  f_mp f = mp /\ f_mp g = mp' /\ like_names (f_name f) (f_orig f) (f_name g) (f_orig g) /\
  f_async f = f_async g /\ Forall2 like_param (f_inputs f) (f_inputs g) /\
  f_ret f = f_ret g /\ f_throws f = f_throws g /\ like_doc (f_doc f) (f_doc g).
Definition like_field (a b : field) : Prop :=
  like_names (fd_name a) (fd_orig a) (fd_name b) (fd_orig b) /\ R (fd_ty a) (fd_ty b) /\
  fd_default a = fd_default b /\ like_doc (fd_doc a) (fd_doc b).
Definition like_record (a b : record_meta) : Prop :=
  r_mp a = mp /\ r_mp b = mp' /\ like_names (r_name a) (r_orig a) (r_name b) (r_orig b) /\
  Forall2 like_field (r_fields a) (r_fields b) /\ like_doc (r_doc a) (r_doc b).
(** The number a literal stands for. *)
Definition lit_number (l : literal) : option Z :=
  match l with LUInt z _ _ | LInt z _ _ => Some z | _ => None end.
Definition like_variant (a b : variant) : Prop :=
  like_names (v_name a) (v_orig a) (v_name b) (v_orig b) /\
  option_map lit_number (v_discr a) = option_map lit_number (v_discr b) /\
  Forall2 like_field (v_fields a) (v_fields b) /\ like_doc (v_doc a) (v_doc b).
Definition like_enum (a b : enum_meta) : Prop :=
  e_mp a = mp /\ e_mp b = mp' /\ like_names (e_name a) (e_orig a) (e_name b) (e_orig b) /\
  e_shape a = e_shape b /\ e_discr_ty a = e_discr_ty b /\
  Forall2 like_variant (e_variants a) (e_variants b) /\
  e_non_exhaustive a = e_non_exhaustive b /\ like_doc (e_doc a) (e_doc b).
Definition like_object (a b : object_meta) : Prop :=
  o_mp a = mp /\ o_mp b = mp' /\ like_names (o_name a) (o_orig a) (o_name b) (o_orig b) /\
  o_imp a = o_imp b /\ like_doc (o_doc a) (o_doc b).
End Like.

(** One description each.  Types and functions are in the defining module for the library and in the
    public one for the sources; methods are in the defining module for both.  Checksums are in the
    library only. *)
Definition like (p : place) (lib src : desc) : Prop :=
  d_remote lib = d_remote src /\ d_arc lib = d_arc src /\
  let fn := like_fn eq (pl_here p) (pl_here p) in
  let ut := like_fn same_named (pl_here p) (pl_here p) in
  match d_meta lib, d_meta src with
  | MFunc f, MFunc g => like_fn eq (pl_here p) (pl_pub p) f g
  | MRecord a, MRecord b => like_record eq (pl_here p) (pl_pub p) a b
  | MEnum a, MEnum b => like_enum eq (pl_here p) (pl_pub p) a b
  | MObject a, MObject b => like_object (pl_here p) (pl_pub p) a b
  | MCallback m n c, MCallback m' n' c' =>
      m = pl_here p /\ m' = pl_pub p /\ n = n' /\ like_doc c c'
  | MConstructor s f, MConstructor s' g => s = s' /\ fn f g
  | MMethod s f, MMethod s' g => s = s' /\ fn f g
  | MTraitMethod s i f, MTraitMethod s' i' g => s = s' /\ i = i' /\ fn f g
  | MUniffiTrait (UTDebug s f), MUniffiTrait (UTDebug s' g)
  | MUniffiTrait (UTDisplay s f), MUniffiTrait (UTDisplay s' g)
  | MUniffiTrait (UTHash s f), MUniffiTrait (UTHash s' g)
  | MUniffiTrait (UTOrd s f), MUniffiTrait (UTOrd s' g) => s = s' /\ ut f g
  | MUniffiTrait (UTEq s f t h), MUniffiTrait (UTEq s' g t' k) =>
      s = s' /\ ut f g /\ t = t' /\ ut h k
  | _, _ => False
  end.

(** Two sets of descriptions: everything in one has its counterpart in the other. *)
Definition same_items (p : place) (ls ss : list desc) : Prop :=
  (forall l, In l ls -> exists s, In s ss /\ like p l s) /\
  (forall s, In s ss -> exists l, In l ls /\ like p l s).

(** The bytes of one item in a library: some module path is known for the objects it mentions. *)
Definition recorded (m : metadata) (b : bytes) : Prop :=
  exists omp, utf8 omp /\ write omp m = Some b.

(** * When the two agree *)

(** The item is not named with `r#`, and has its own name in the public module. *)
Definition own_name (p : place) (i : ident) : Prop :=
  id_raw i = false /\ (pl_as p = None \/ pl_as p = Some (id_name i)).
(** There is no `#[uniffi(name = "…")]`. *)
Definition unrenamed (l : list attr) : Prop :=
  forall a n, In (AtUniffi a) l -> ~ In (AName n) (ag_list a).
(** There is no `#[uniffi::export(…)]`. *)
Definition unexported (l : list attr) : Prop := forall a, ~ In (AtExport a) l.
Definition plain_type (p : place) (remote : bool) (i : ident) (l : list attr) : Prop :=
  remote = false /\ own_name p i /\ (unexported l \/ unrenamed l).
Definition plain_field (f : sfield) : Prop := sf_id f <> None \/ unrenamed (sf_attrs f).
Definition plain_variants (error : bool) (l : list attr) (vs : list svariant) : Prop :=
  (forall v f, In v vs -> In f (sv_fields v) -> plain_field f) /\
  let valueless := forall v, In v vs -> sv_discr v = None in
  if error then (forall rs, ~ In (AtRepr rs) l) /\ valueless
  else valueless \/ exists rs, In (AtRepr rs) l /\ rs <> [].
Definition is_member_attr (a : attr) : bool :=
  match a with AtCtor _ | AtMethod _ => true | _ => false end.
Definition plain_member (m : member) : Prop :=
  match m with
  | MbOther => True
  | MbFn f =>
      ~ In (FReceiver true) (sn_args f) /\
      (length (filter is_member_attr (sn_attrs f)) <= 1)%nat
  end.
Definition plain (p : place) (it : item) : Prop :=
  match it with
  | ItRecord remote i l _ | ItObject remote i l => plain_type p remote i l
  | ItEnum error remote i l vs => plain_type p remote i l /\ plain_variants error l vs
  | ItFn f => own_name p (sn_id f)
  | ItImpl i t tr l ms =>
      tr = None /\
      ((exists a n, In (AtExport (Some a)) l /\ In (AName n) (ag_list a)) \/
       (exists j, i = Some j /\ ty_name t = Some (id_name j))) /\
      Forall plain_member ms
  | ItTrait i _ ms => own_name p i /\ Forall plain_member ms
  end.

(** * What a library says about an item *)
Definition in_library (d : nat) (p : place) (it : item) (ls : list metadata) : Prop :=
  exists ms bs, macros p it = Some ms /\ Forall2 recorded ms bs /\
                Forall2 (fun b m => read d b = Ok (m, [])) bs ls.
(** Both sides accept the item and describe it differently. *)
Definition differ (d : nat) (p : place) (it : item) : Prop :=
  exists ls ss, in_library d p it ls /\ sources p it = Some ss /\
                ~ same_items p (map from_library ls) ss.
(** One side describes the item, the other one refuses it. *)
Definition library_only (d : nat) (p : place) (it : item) : Prop :=
  (exists ls, in_library d p it ls) /\ sources p it = None.
Definition sources_only (p : place) (it : item) : Prop :=
  macros p it = None /\ exists ss, sources p it = Some ss.
(** The library is made, but what it says about the item is refused by the reader. *)
Definition unreadable (p : place) (it : item) : Prop :=
  (exists ms bs, macros p it = Some ms /\ Forall2 recorded ms bs /\
                 Exists (fun b => exists d, read d b = Err) bs) /\
  exists ss, sources p it = Some ss.

(** * When the source reader accepts what the macros accept *)

(** A bare `default` has nothing at all after it. *)
Definition bare_last (a : args) : Prop :=
  forall l1 l2, ag_list a = l1 ++ ADefault None :: l2 -> l2 = [] /\ ag_comma a = false.
(** `true` and `false` are for booleans only, and unsigned numbers are not negative. *)
Fixpoint tidy_value (t : ty) (v : dval) {struct v} : Prop :=
  match v with
  | VBool _ => base_type t = TBool
  | VInt z _ => base_type t = TU64 -> (0 <= z)%Z
  | VSome v => forall u, base_type t = TOption u -> tidy_value u v
  | _ => True
  end.
Definition tidy_field (f : sfield) : Prop :=
  forall a, In (AtUniffi a) (sf_attrs f) ->
    bare_last a /\ forall v, In (ADefault (Some v)) (ag_list a) -> tidy_value (sf_ty f) v.
(** The integer types are those of the interface, and the values fit. *)
Definition fits (t : ty) (d : dexpr) : Prop :=
  match d with
  | DxInt z => (0 <= z < if is_signed t then 2 ^ 63 else 2 ^ 64)%Z
  | DxNegInt z => is_signed t = true /\ (0 <= z < 2 ^ 63)%Z
  | DxOther => False
  end.
Definition tidy_variants (l : list attr) (vs : list svariant) : Prop :=
  (forall v f, In v vs -> In f (sv_fields v) -> tidy_field f) /\
  (forall rs r, In (AtRepr rs) l -> In r rs ->
     exists t, r = RTy t /\ forall v x, In v vs -> sv_discr v = Some x -> fits t x) /\
  (forall a, In (AtUniffi a) l -> ~ In (AFlag GTryRead) (ag_list a)).
(** All the default values given to arguments. *)
Definition given (l : list arg) : list (ident * option dval) :=
  flat_map (fun a => match a with ADefaults l _ => l | _ => [] end) l.
(** At most one for each argument, fitting its type. *)
Definition tidy_defaults (a : args) (ps : list fnarg) : Prop :=
  NoDup (map fst (given (ag_list a))) /\
  forall i v t pb self, In (i, Some v) (given (ag_list a)) -> In (FTyped (Some i) t pb self) ps ->
    tidy_value t v.
Definition no_self (ps : list fnarg) : Prop := forall i t pb, ~ In (FTyped i t pb true) ps.
Definition tidy_fn (f : sfn) : Prop :=
  no_self (sn_args f) /\
  forall a, In (AtExport (Some a)) (sn_attrs f) -> tidy_defaults a (sn_args f).
(** One attribute per method; constructors return the type and do not mention it as `Self`
    otherwise. *)
Definition tidy_member (self_ty : ty) (m : member) : Prop :=
  match m with
  | MbOther => True
  | MbFn f =>
      (length (filter is_member_attr (sn_attrs f)) <= 1)%nat /\
      (forall a, In (AtCtor (Some a)) (sn_attrs f) \/ In (AtMethod (Some a)) (sn_attrs f) ->
                 tidy_defaults a (sn_args f)) /\
      (is_ctor (sn_attrs f) = true -> sn_ret f = Some self_ty /\ no_self (sn_args f))
  end.
Definition tidy (it : item) : Prop :=
  match it with
  | ItRecord _ _ _ fs => Forall tidy_field fs
  | ItEnum _ _ _ l vs => tidy_variants l vs
  | ItObject _ _ _ => True
  | ItFn f => tidy_fn f
  | ItImpl _ t _ _ ms => ty_name t <> None /\ Forall (tidy_member t) ms
  | ItTrait _ l ms =>
      (forall a, In (AtExport (Some a)) l ->
         (forall r, ~ In (AAsync r) (ag_list a)) /\ ~ In (AFlag GRemote) (ag_list a)) /\
      Forall (tidy_member (TObject [] [] IStruct)) ms
  end.
