(** What the macros read in the generated code. *)
From Verif Require Import Base Meta_Types Api_Types Api_Model Excl_Model Src_Model Stub_Model.

(** The argument, function, … as the macros read them. *)
Definition st_param (p : param) : param :=
  Param (p_name p) (p_ty p)
    (match p_pass p with
     | ByValue => ByValue
     | ByRef => ByRef
     | ByMutRef => match p_ty p with TBytes => ByMutRef | _ => ByRef end
     end) None.
Definition st_callback_param (p : param) : param :=
  Param (p_name p) (p_ty p) (match p_pass p with ByValue => ByValue | _ => ByRef end) None.
Definition st_fn (c : str) (f : fn_meta) : fn_meta :=
  Fn c (f_name f) None (f_async f) (map st_param (f_inputs f)) (f_ret f) (f_throws f) None None.
Definition st_callback_fn (c : str) (f : fn_meta) : fn_meta :=
  Fn c (f_name f) None false (map st_callback_param (f_inputs f)) (f_ret f) (f_throws f) None None.
Definition st_field (f : field) : field := Field (fd_name f) None (fd_ty f) None None.
Definition st_variant (v : variant) : variant :=
  Variant (v_name v) None None (map st_field (v_fields v)) None.
Definition st_flat_variant (v : variant) : variant := Variant (v_name v) None None [] None.

Definition sound (f : fn_meta) : Prop :=
  f_async f = true -> Forall (fun p => p_pass p <> ByMutRef) (f_inputs f).

Lemma traverse_map {A B C} (f : B -> option C) (g : A -> B) (h : A -> C) (l : list A) :
  (forall x, In x l -> f (g x) = Some (h x)) -> traverse f (map g l) = Some (map h l).
Proof.
  induction l as [| x l IH]; intros H; [reflexivity |].
  cbn [map traverse]. rewrite (H x (or_introl eq_refl)). cbn [Src_Model.bind].
  rewrite IH; [reflexivity |]. intros y I. apply H. right. exact I.
Qed.
Lemma traverse_all {A B} (f : A -> option B) (h : A -> B) (l : list A) :
  (forall x, In x l -> f x = Some (h x)) -> traverse f l = Some (map h l).
Proof. intros H. rewrite <- (map_id l) at 1. apply traverse_map. exact H. Qed.

Lemma params_read ps : traverse (m_param []) (map arg_rs ps) = Some (map st_param ps).
Proof. apply traverse_map. intros p _. reflexivity. Qed.
Lemma callback_params_read ps : traverse (m_param []) (map callback_arg_rs ps) = Some (map st_callback_param ps).
Proof. apply traverse_map. intros p _. reflexivity. Qed.

Lemma no_mut ps : Forall (fun p => p_pass p <> ByMutRef) ps -> existsb is_mut (map arg_rs ps) = false.
Proof.
  induction 1 as [| p ps H _ IH]; [reflexivity |]. cbn [map existsb]. rewrite IH, orb_false_r.
  unfold arg_rs, is_mut. destruct (p_pass p); [reflexivity | reflexivity | congruence].
Qed.
Lemma sound_guard f : sound f -> f_async f && existsb is_mut (map arg_rs (f_inputs f)) = false.
Proof.
  intros H. destruct (f_async f) eqn:E; [| reflexivity]. cbn [andb]. apply no_mut. apply H. exact E.
Qed.

(** [m_sig] without attributes, once the receiver is taken. *)
Lemma sig_step c receiver f rest :
  match receiver, sn_args f with
  | true, FReceiver _ :: r => Some r
  | true, _ => None
  | false, r => Some r
  end = Some rest -> m_doc (sn_attrs f) = Some None ->
  sn_async f && existsb is_mut rest = false ->
  m_sig c receiver no_fargs f =
  Src_Model.bind (traverse (m_param []) rest) (fun ps =>
    Some (Fn c (unraw (sn_id f)) None (sn_async f) ps (sn_ret f) (sn_throws f) None None)).
Proof.
  intros R D G. unfold m_sig. rewrite D, R. cbn [Src_Model.bind no_fargs fa_defs fa_async fa_name].
  destruct (traverse (m_param []) rest) as [ps |]; [| reflexivity].
  cbn [Src_Model.bind forallb guard get_or m_orig]. rewrite G. cbn [negb guard Src_Model.bind].
  rewrite orb_true_r. reflexivity.
Qed.

Lemma fn_read c f : sound f -> macros (here c) (fn_stub f) = Some [MFunc (st_fn c f)].
Proof.
  intros S. unfold fn_stub. cbn [macros here pl_here]. unfold m_fn.
  cbn [sn_attrs m_export exports Src_Model.bind m_fargs].
  rewrite (sig_step c false _ (map arg_rs (f_inputs f)));
    [| reflexivity | reflexivity | apply sound_guard; exact S].
  cbn [sn_id sn_async sn_ret sn_throws]. rewrite params_read. reflexivity.
Qed.

Lemma constructor_read c self f : sound f ->
  macros (here c) (constructor_stub c self f) =
  Some [MConstructor self (Fn c (f_name f) None (f_async f) (map st_param (f_inputs f)) None (f_throws f) None None)].
Proof.
  intros S. unfold constructor_stub. cbn [macros here pl_here]. unfold m_impl.
  cbn [m_export exports Src_Model.bind m_pieces traverse snd fst get_or]. unfold m_member at 1.
  cbn [sn_attrs m_member_attrs m_fargs Src_Model.bind fst snd negb].
  rewrite (sig_step c false _ (map arg_rs (f_inputs f)));
    [| reflexivity | reflexivity | apply sound_guard; exact S].
  cbn [sn_id sn_async sn_ret sn_throws]. rewrite params_read. cbn [Src_Model.bind].
  cbn [Meta_Model.is_self raw unraw id_name]. destruct (bytes_eqb_spec self self) as [_ | K]; [| congruence].
  cbn [Src_Model.bind existsb is_async sn_async guard app Meta_Model.drop_ret]. rewrite orb_true_r. reflexivity.
Qed.

Lemma method_read c arc self f : sound f ->
  macros (here c) (method_stub c arc self f) = Some [MMethod self (st_fn c f)].
Proof.
  intros S. unfold method_stub. cbn [macros here pl_here]. unfold m_impl.
  cbn [m_export exports Src_Model.bind m_pieces traverse snd fst get_or]. unfold m_member at 1.
  cbn [sn_attrs m_member_attrs m_fargs Src_Model.bind fst snd negb].
  rewrite (sig_step c true _ (map arg_rs (f_inputs f)));
    [| reflexivity | reflexivity | apply sound_guard; exact S].
  cbn [sn_id sn_async sn_ret sn_throws]. rewrite params_read. cbn [Src_Model.bind].
  cbn [Src_Model.bind existsb is_async sn_async guard app raw unraw id_name]. rewrite orb_true_r. reflexivity.
Qed.

(** The methods of a trait get their places as numbers. *)
Fixpoint count (g : fn_meta -> fn_meta) (self : str) (k : Z) (fs : list fn_meta) : list metadata :=
  match fs with
  | [] => []
  | f :: r => MTraitMethod self k (g f) :: count g self (k + 1) r
  end.

Lemma trait_member_read c arc self k f : sound f ->
  m_trait_member c self k (trait_method_stub arc self f) = Some (MTraitMethod self k (st_fn c f)).
Proof.
  intros S. unfold trait_method_stub, m_trait_member. cbn [sn_body sn_attrs negb guard Src_Model.bind m_member_attrs fst snd].
  rewrite (sig_step c true _ (map arg_rs (f_inputs f)));
    [| reflexivity | reflexivity | apply sound_guard; exact S].
  cbn [sn_id sn_async sn_ret sn_throws]. rewrite params_read. reflexivity.
Qed.
Lemma callback_member_read c arc self k f :
  m_trait_member c self k (callback_method_stub arc self f) = Some (MTraitMethod self k (st_callback_fn c f)).
Proof.
  unfold callback_method_stub, m_trait_member. cbn [sn_body sn_attrs negb guard Src_Model.bind m_member_attrs fst snd].
  rewrite (sig_step c true _ (map callback_arg_rs (f_inputs f))); [| reflexivity | reflexivity | reflexivity].
  cbn [sn_id sn_async sn_ret sn_throws]. rewrite callback_params_read. reflexivity.
Qed.
Lemma trait_members_read c arc self fs : Forall sound fs -> forall k,
  m_trait_members c self k (map (trait_method_stub arc self) fs) = Some (count (st_fn c) self k fs).
Proof.
  induction 1 as [| f fs S _ IH]; intros k; [reflexivity |]. cbn [map m_trait_members].
  rewrite (trait_member_read c arc self k f S). cbn [Src_Model.bind]. rewrite IH. reflexivity.
Qed.
Lemma callback_members_read c arc self fs : forall k,
  m_trait_members c self k (map (callback_method_stub arc self) fs) = Some (count (st_callback_fn c) self k fs).
Proof.
  induction fs as [| f fs IH]; intros k; [reflexivity |]. cbn [map m_trait_members].
  rewrite (callback_member_read c arc self k f). cbn [Src_Model.bind]. rewrite IH. reflexivity.
Qed.

Lemma trait_read c remote arc o k fs : o_imp o = ITrait k -> k <> ForeignOnly -> Forall sound fs ->
  macros (here c) (ItTrait (raw (o_name o)) [AtExport (trait_export remote o)] (map (trait_method_stub arc (o_name o)) fs)) =
  Some (MObject (Obj c (o_name o) None (ITrait k) None) :: count (st_fn c) (o_name o) 0 fs).
Proof.
  intros E N S. cbn [macros here pl_here]. unfold m_trait, trait_export. rewrite E.
  cbn [m_export exports Src_Model.bind raw unraw id_name].
  destruct k; cbn [has_callback_interface]; [| | congruence].
  - destruct (remote (o_name o)); cbn;
      change (m_trait_members c (o_name o) 0 (map (trait_method_stub arc (o_name o)) fs)) with
             (m_trait_members c (o_name o) 0 (map (trait_method_stub arc (o_name o)) fs));
      rewrite (trait_members_read c arc (o_name o) fs S 0); reflexivity.
  - cbn. rewrite (trait_members_read c arc (o_name o) fs S 0). reflexivity.
Qed.
Lemma callback_read c arc n fs :
  macros (here c) (ItTrait (raw n) [AtExport (Some (Args [AFlag GCallback] false))] (map (callback_method_stub arc n) fs)) =
  Some (MCallback c n None :: count (st_callback_fn c) n 0 fs).
Proof.
  cbn [macros here pl_here]. unfold m_trait. cbn. rewrite (callback_members_read c arc n fs 0). reflexivity.
Qed.

(** ** Types *)

Definition st_traits (c self : str) (t : ty) (debug display hash ord eq : bool) : list metadata :=
  let other := [Param OTHER t ByRef None] in
  (if debug then [MUniffiTrait (UTDebug self (utrait_fn c UT_DEBUG [] TString))] else []) ++
  (if display then [MUniffiTrait (UTDisplay self (utrait_fn c UT_DISPLAY [] TString))] else []) ++
  (if hash then [MUniffiTrait (UTHash self (utrait_fn c UT_HASH [] TU64))] else []) ++
  (if ord then [MUniffiTrait (UTOrd self (utrait_fn c UT_CMP other TI8))] else []) ++
  (if eq then [MUniffiTrait (UTEq self (utrait_fn c UT_EQ other TBool) self (utrait_fn c UT_NE other TBool))] else []).

Definition five (b1 b2 b3 b4 b5 : bool) : list attr :=
  derive b1 GDebug ++ derive b2 GDisplay ++ derive b3 GHash ++ derive b4 GOrd ++ derive b5 GEq.
Definition no_exports (l : list attr) : Prop := exports l = [].
Lemma exports_app l l' : exports (l ++ l') = exports l ++ exports l'.
Proof. induction l as [| [] l IH]; cbn; rewrite ?IH; reflexivity. Qed.

Lemma traits_read c n t b1 b2 b3 b4 b5 l : no_exports l ->
  m_utraits c (raw n) t (five b1 b2 b3 b4 b5 ++ l) = Some (st_traits c n t b1 b2 b3 b4 b5).
Proof.
  intros H. unfold m_utraits. rewrite exports_app. unfold no_exports in H. rewrite H, app_nil_r.
  destruct b1, b2, b3, b4, b5; reflexivity.
Qed.
Lemma no_traits_read c n t l : no_exports l -> m_utraits c (raw n) t l = Some [].
Proof. intros H. exact (traits_read c n t false false false false false l H). Qed.

Lemma fields_read b fs : traverse (m_field b) (map field_stub fs) = Some (map st_field fs).
Proof. apply traverse_map. intros f _. destruct b; reflexivity. Qed.
Lemma variants_read vs : traverse m_variant (map variant_stub vs) = Some (map st_variant vs).
Proof.
  apply traverse_map. intros v _. unfold m_variant, variant_stub. cbn [sv_fields sv_attrs sv_discr sv_id].
  rewrite fields_read. reflexivity.
Qed.
Lemma flat_variants_read vs : traverse m_flat_variant (map variant_stub vs) = Some (map st_flat_variant vs).
Proof. apply traverse_map. intros v _. reflexivity. Qed.
Lemma variants_no_args vs :
  forallb (fun v => forallb (fun f => no_args (sf_attrs f)) (sv_fields v)) (map variant_stub vs) = true.
Proof.
  induction vs as [| v vs IH]; [reflexivity |]. cbn [map forallb]. rewrite IH, andb_true_r.
  cbn [variant_stub sv_fields]. induction (v_fields v) as [| f fs IHf]; [reflexivity |].
  cbn [map forallb]. rewrite IHf. reflexivity.
Qed.

(** The attributes of a type say neither a name nor documentation. *)
Lemma five_name b1 b2 b3 b4 b5 : m_name (five b1 b2 b3 b4 b5) = Some None.
Proof. destruct b1, b2, b3, b4, b5; reflexivity. Qed.
Lemma five_doc b1 b2 b3 b4 b5 : m_doc (five b1 b2 b3 b4 b5) = Some None.
Proof. destruct b1, b2, b3, b4, b5; reflexivity. Qed.

Lemma record_read c remote r ts :
  macros (here c) (record_stub remote r ts) =
  Some (MRecord (Rec c (r_name r) None (map st_field (r_fields r)) None) ::
        st_traits c (r_name r) (TRecord c (r_name r))
          (existsb is_debug ts) (existsb is_display ts) (existsb is_hash ts) (existsb is_ord ts) (existsb is_eq ts)).
Proof.
  unfold record_stub. cbn [macros here pl_here]. unfold m_record.
  change (trait_attrs ts) with (five (existsb is_debug ts) (existsb is_display ts) (existsb is_hash ts) (existsb is_ord ts) (existsb is_eq ts)).
  rewrite five_name, five_doc, fields_read. cbn [Src_Model.bind get_or raw unraw id_name r_name].
  rewrite <- (app_nil_r (five _ _ _ _ _)). rewrite traits_read; [| reflexivity]. reflexivity.
Qed.
Lemma struct_read c remote n ts :
  macros (here c) (ItObject (remote n) (raw n) (trait_attrs ts)) =
  Some (MObject (Obj c n None IStruct None) ::
        st_traits c n (TObject c n IStruct)
          (existsb is_debug ts) (existsb is_display ts) (existsb is_hash ts) (existsb is_ord ts) (existsb is_eq ts)).
Proof.
  cbn [macros here pl_here]. unfold m_object.
  change (trait_attrs ts) with (five (existsb is_debug ts) (existsb is_display ts) (existsb is_hash ts) (existsb is_ord ts) (existsb is_eq ts)).
  rewrite five_name, five_doc. cbn [Src_Model.bind get_or raw unraw id_name o_name].
  rewrite <- (app_nil_r (five _ _ _ _ _)). rewrite traits_read; [| reflexivity]. reflexivity.
Qed.
Lemma enum_read c remote e ts :
  macros (here c) (enum_stub remote e ts) =
  Some (MEnum (Enum c (e_name e) None ShEnum None (map st_variant (e_variants e)) (e_non_exhaustive e) None) ::
        st_traits c (e_name e) (TEnum c (e_name e))
          (existsb is_debug ts) (existsb is_debug ts) (existsb is_hash ts) (existsb is_ord ts) (existsb is_eq ts)).
Proof.
  unfold enum_stub. cbn [macros here pl_here]. unfold m_enum.
  change (enum_trait_attrs ts) with (five (existsb is_debug ts) (existsb is_debug ts) (existsb is_hash ts) (existsb is_ord ts) (existsb is_eq ts)).
  set (b1 := existsb is_debug ts). set (b3 := existsb is_hash ts). set (b4 := existsb is_ord ts). set (b5 := existsb is_eq ts).
  assert (E : m_uniffi one_enum merge_enum (EA None None None) (EA None None None) (five b1 b1 b3 b4 b5 ++ non_exhaustive e)
              = Some (EA None None None)) by (unfold non_exhaustive; destruct b1, b3, b4, b5, (e_non_exhaustive e); reflexivity).
  assert (D : m_doc (five b1 b1 b3 b4 b5 ++ non_exhaustive e) = Some None)
    by (unfold non_exhaustive; destruct b1, b3, b4, b5, (e_non_exhaustive e); reflexivity).
  assert (R : m_repr (five b1 b1 b3 b4 b5 ++ non_exhaustive e) = None)
    by (unfold non_exhaustive; destruct b1, b3, b4, b5, (e_non_exhaustive e); reflexivity).
  assert (X : m_non_exhaustive (five b1 b1 b3 b4 b5 ++ non_exhaustive e) = e_non_exhaustive e)
    by (unfold non_exhaustive; destruct b1, b3, b4, b5, (e_non_exhaustive e); reflexivity).
  rewrite E, D, R, X, variants_read.
  cbn [Src_Model.bind ea_flat ea_try ea_name negb andb guard get_or raw unraw id_name e_name m_orig].
  rewrite traits_read by (unfold non_exhaustive, no_exports; destruct (e_non_exhaustive e); reflexivity). reflexivity.
Qed.
Lemma error_read c remote a e :
  macros (here c) (error_stub remote a e) =
  Some [MEnum (Enum c (e_name e) None (ShError (is_flat e)) None
                 (map (if is_flat e then st_flat_variant else st_variant) (e_variants e)) (e_non_exhaustive e) None)].
Proof.
  unfold error_stub. cbn [macros here pl_here]. unfold m_enum.
  set (l := (if is_flat e then _ else _) ++ non_exhaustive e).
  assert (E : exists t, m_uniffi one_enum merge_enum (EA None None None) (EA None None None) l
              = Some (EA (if is_flat e then Some tt else None) t None)).
  { subst l. unfold non_exhaustive. destruct (is_flat e), (should_generate_error_read a e), (e_non_exhaustive e); eexists; reflexivity. }
  destruct E as [t E].
  assert (D : m_doc l = Some None)
    by (subst l; unfold non_exhaustive; destruct (is_flat e), (should_generate_error_read a e), (e_non_exhaustive e); reflexivity).
  assert (X : m_non_exhaustive l = e_non_exhaustive e)
    by (subst l; unfold non_exhaustive; destruct (is_flat e), (should_generate_error_read a e), (e_non_exhaustive e); reflexivity).
  assert (N : no_exports l)
    by (subst l; unfold non_exhaustive, no_exports; destruct (is_flat e), (should_generate_error_read a e), (e_non_exhaustive e); reflexivity).
  rewrite E, D, X, variants_no_args. cbn [Src_Model.bind guard ea_flat ea_name get_or raw unraw id_name m_orig].
  destruct (is_flat e); [rewrite flat_variants_read | rewrite variants_read];
    cbn [Src_Model.bind e_name]; rewrite (no_traits_read c (e_name e) _ l N); reflexivity.
Qed.
