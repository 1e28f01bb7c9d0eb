(** Concrete cases for C72. *)
From Verif Require Import Base Meta_Types Group_Model Api_Types Api_Spec Api_Model Api_Claims Api_Refute.
From Verif Require Import Univ_Spec Excl_Types Excl_Spec Excl_Model Excl_Claims Excl_Refute Src_Model Stub_Model Stub_Spec Stub_Claims Stub_Refute Stub_Links.
Local Open Scope string_scope.
Local Open Scope list_scope.

(** A record, an enum that has Debug and Display, an error with fields, an object with a constructor, an
    asynchronous method that throws and with Eq, a trait that may be implemented on both sides, a callback
    interface, a custom type and functions. *)
Definition err : ty := TEnum (S_ "a") (S_ "Oops").
Definition obj_ty : ty := TObject (S_ "a") (S_ "O") IStruct.
Definition run : fn_meta := Fn (S_ "a") (S_ "run") None true [Param (S_ "x") (TRecord (S_ "a") (S_ "R")) ByRef None] (Some TU8) (Some err) (Some 1%Z) None.
Definition fill : fn_meta := Fn (S_ "a") (S_ "fill") None false [Param (S_ "x") TBytes ByMutRef None] None None (Some 2%Z) (Some (S_ "Fills.")).
Definition err_item : metadata := MEnum (Enum (S_ "a") (S_ "Oops") None ShEnum None
  [Variant (S_ "Bad") None None [Field (S_ "why") None TString None None] None] false None).
Definition both_item : metadata := MObject (Obj (S_ "a") (S_ "T") None (ITrait Both) None).
Definition ex : group := Group (S_ "a") (S_ "space")
  [MRecord (Rec (S_ "a") (S_ "R") None [Field (S_ "n") None TU8 (Some (DLit (LUInt 3%Z Decimal_ TU8))) None] None);
   enum_ "a" "E";
   MUniffiTrait (UTDebug (S_ "E") (builtin (S_ "a") "uniffi_trait_debug" [] TString));
   MUniffiTrait (UTDisplay (S_ "E") (builtin (S_ "a") "uniffi_trait_display" [] TString));
   err_item; obj_ "a" "O";
   MConstructor (S_ "O") (fn_ "a" "new" [TCallback (S_ "a") (S_ "C")] None);
   MMethod (S_ "O") run;
   MUniffiTrait (UTEq (S_ "O") (builtin (S_ "a") "uniffi_trait_eq_eq" [Param (S_ "other") obj_ty ByRef None] TBool)
                      (S_ "O") (builtin (S_ "a") "uniffi_trait_eq_ne" [Param (S_ "other") obj_ty ByRef None] TBool));
   both_item; MMethod (S_ "T") (fn_ "a" "go" [] None);
   MCallback (S_ "a") (S_ "C") None;
   MTraitMethod (S_ "C") 0%Z (fn_ "a" "second" [TBool] None);
   MTraitMethod (S_ "C") 1%Z (fn_ "a" "first" [] None);
   MCustom (S_ "a") (S_ "Url") TString None;
   MFunc fill; MFunc (fn_ "a" "secret" [TCustom (S_ "a") (S_ "Url") TString] None)].
Definition ex_conf : conf := Conf [S_ "secret"; S_ "O.run"] [(S_ "R", S_ "Rec")].

Ltac fn_tac := split; [reflexivity | split; [reflexivity | try discriminate; intros _; repeat constructor; discriminate]].
Lemma ex_of : of_group ex.
Proof.
  split.
  - cbn [g_items ex]. repeat (apply NoDup_cons; [intros K; vm_compute in K; repeat (destruct K as [K | K]; [discriminate K |]); destruct K |]). apply NoDup_nil.
  - intros m K. cbn [g_items ex] in K. items_cases; (split; [eexists; split; [reflexivity | vm_compute; reflexivity] | reflexivity]).
Qed.
Lemma ex_objects : objects_differ (g_items ex).
Proof.
  intros m m' J J' E. cbn [g_items ex] in J, J'. items_cases; first [exact Logic.I | reflexivity | exfalso; vm_compute in E; discriminate E].
Qed.
Lemma ex_udl : from_udl ex (api_of ex).
Proof.
  split; [| split; [exact ex_of | split; [exact ex_objects | split; [cbn [g_items ex]; numbered_tac | vm_compute; reflexivity]]]].
  intros m J. cbn [g_items ex] in J. items_cases; cbn [udl_item err_item both_item enum_ obj_ r_mp r_orig r_fields e_mp e_orig e_discr_ty e_variants e_shape o_mp o_orig o_imp].
  - repeat split; repeat constructor.
  - repeat split; try constructor; try discriminate.
  - exists (enum_ "a" "E"), (TEnum (S_ "a") (S_ "E")), (S_ "E"). split; [cbn [g_items ex In]; auto 20 | repeat split].
  - exists (enum_ "a" "E"), (TEnum (S_ "a") (S_ "E")), (S_ "E"). split; [cbn [g_items ex In]; auto 20 | repeat split].
  - split; [reflexivity | split; [reflexivity | split; [reflexivity | split; [repeat constructor | discriminate]]]].
  - repeat split; discriminate.
  - split; [fn_tac | split; [reflexivity |]]. exists (Obj (S_ "a") (S_ "O") None IStruct None). split; [cbn [g_items ex In obj_]; auto 20 | split; reflexivity].
  - split; [fn_tac |]. exists (Obj (S_ "a") (S_ "O") None IStruct None). split; [cbn [g_items ex In obj_]; auto 20 | reflexivity].
  - exists (obj_ "a" "O"), obj_ty, (S_ "O"). split; [cbn [g_items ex In]; auto 20 | repeat split].
  - repeat split; discriminate.
  - split; [fn_tac |]. exists (Obj (S_ "a") (S_ "T") None (ITrait Both) None). split; [cbn [g_items ex In both_item]; auto 20 | reflexivity].
  - reflexivity.
  - split; [fn_tac |]. exists (S_ "a"), None. cbn [g_items ex In]; auto 20.
  - split; [fn_tac |]. exists (S_ "a"), None. cbn [g_items ex In]; auto 20.
  - exact Logic.I.
  - fn_tac.
  - fn_tac.
Qed.
Ltac in_ex J := cbn [g_items ex] in J; items_cases.
Lemma ex_traits : plain_traits (g_items ex).
Proof.
  split; [| split].
  - intros e u J J' W. assert (e_name e = S_ "E").
    { in_ex J; injection J as <-; [reflexivity |]. exfalso. in_ex J'; injection J' as <-; vm_compute in W; discriminate W. }
    rewrite H. intros [(d & flat & K & N & S) | (m & f & t & K & S & T & N)].
    + in_ex K; injection K as <-; discriminate S.
    + in_ex K; cbn in S; try contradiction S; subst f; try discriminate T. injection T as <-. vm_compute in N. discriminate N.
  - intros o u J J' W. in_ex J; injection J as <-; [reflexivity |]. exfalso. in_ex J'; injection J' as <-; vm_compute in W; discriminate W.
  - intros e J. in_ex J; injection J as <-.
    + split; intros _; eexists; cbn [g_items ex In]; [right; right; right; left; reflexivity | right; right; left; reflexivity].
    + split; intros (f & K); in_ex K; discriminate K.
Qed.
Lemma ex_mutable : mutable_bytes (g_items ex).
Proof.
  intros m f p J S I B. in_ex J; cbn in S; try contradiction S; subst f; cbn in I; items_cases; subst p; try discriminate B; reflexivity.
Qed.
Lemma ex_callbacks : plain_callbacks (g_items ex).
Proof.
  intros s i f J. in_ex J; injection J as <- <- <-; (split; [reflexivity |]); repeat constructor; discriminate.
Qed.
Lemma ex_keeps : keeps_traits ex_conf (g_items ex).
Proof.
  intros m mp n n' J F D K. in_ex J; cbn in F; items_cases; try contradiction F; try discriminate F;
    try (destruct F as [F | F]; discriminate F); injection D as <- <-; vm_compute in K; destruct K as [K | []]; discriminate K.
Qed.
Lemma ex_whole : whole_traits ex_conf (g_items ex).
Proof.
  intros m d J J' F W R (k & E & K). cbn [excluded ex_conf] in K.
  assert (m = MMethod (S_ "O") run).
  { clear J' F W. in_ex J; try match goal with K : role_of _ = Some _ |- _ => discriminate K end;
      vm_compute in E; try discriminate E; reflexivity. }
  subst m. clear E K J R. in_ex J'; cbn in F; try contradiction F; try (destruct F as [F | F]; discriminate F); vm_compute in W; discriminate W.
Qed.
Lemma ex_owned : owned (g_items ex).
Proof.
  cbn [g_items ex]. owned_tac;
    first [ exists (obj_ "a" "O"); split; [cbn [In]; auto 20 |]; refine (conj _ (conj eq_refl Logic.I)); discriminate
          | exists both_item; split; [cbn [In]; auto 20 |]; refine (conj _ (conj eq_refl Logic.I)); discriminate
          | exists (enum_ "a" "E"); split; [cbn [In]; auto 20 |]; refine (conj _ (conj eq_refl Logic.I)); discriminate
          | exists (MCallback (S_ "a") (S_ "C") None); split; [cbn [In]; auto 20 |]; refine (conj _ (conj eq_refl Logic.I)); discriminate ].
Qed.
Lemma ex_types : types_differ (g_items ex).
Proof. cbn [g_items ex]. differ_tac. Qed.
Lemma ex_pl : forall g, In g [ex] -> owned (g_items g) /\ types_differ (g_items g) /\ numbered (g_items g).
Proof. intros g [<- | []]. exact (conj ex_owned (conj ex_types (proj1 (proj2 (proj2 (proj2 ex_udl)))))). Qed.
Lemma ex_grouped : grouped [ex].
Proof. split; [repeat constructor; cbn; intuition discriminate |]. constructor; [exact (proj1 (proj2 ex_udl)) | constructor]. Qed.
Lemma ex_dashes : no_dashes [ex].
Proof. unfold ex. no_dashes_tac. Qed.

(** What the library exports. *)
Example ex_library : scaffolding (S_ "a") no_remote no_arc (api_of ex) = Some (map S_
  ["uniffi_a_fn_clone_o"; "uniffi_a_fn_free_o"; "uniffi_a_fn_method_o_uniffi_trait_eq_eq";
   "uniffi_a_fn_method_o_uniffi_trait_eq_ne"; "uniffi_a_fn_constructor_o_new"; "uniffi_a_fn_method_o_run";
   "uniffi_a_fn_clone_t"; "uniffi_a_fn_free_t"; "uniffi_a_fn_init_callback_vtable_t"; "uniffi_a_fn_method_t_go";
   "uniffi_a_fn_method_e_uniffi_trait_debug"; "uniffi_a_fn_method_e_uniffi_trait_display";
   "uniffi_a_fn_init_callback_vtable_c"; "uniffi_a_fn_func_fill"; "uniffi_a_fn_func_secret";
   "uniffi_a_checksum_func_fill"; "uniffi_a_checksum_func_secret"; "uniffi_a_checksum_method_o_run";
   "uniffi_a_checksum_constructor_o_new"; "uniffi_a_checksum_method_t_go"; "uniffi_a_checksum_method_c_second";
   "uniffi_a_checksum_method_c_first"])%list.
Proof. vm_compute. reflexivity. Qed.
Example ex_exports : exists l, scaffolding (S_ "a") no_remote no_arc (api_of ex) = Some l /\ exports_exactly (g_items ex) l.
Proof. exact (exports_right_proof ex _ no_remote no_arc ex_udl ex_traits). Qed.

(** The error is described as one that is used as an error, with its fields. *)
Example ex_again : exists v, In v (a_types (api_of ex)) /\ v_item v = err_item /\
  read_back (S_ "a") no_remote no_arc (api_of ex) v = Some [[MEnum (Enum (S_ "a") (S_ "Oops") None (ShError false) None
    [Variant (S_ "Bad") None None [Field (S_ "why") None TString None None] None] false None)]].
Proof.
  exists (View err_item [] [] [] []). split; [vm_compute; tauto |]. split; [reflexivity | vm_compute; reflexivity].
Qed.
Example ex_described : plain_traits (g_items ex) /\ mutable_bytes (g_items ex) /\ plain_callbacks (g_items ex).
Proof. exact (conj ex_traits (conj ex_mutable ex_callbacks)). Qed.

(** Bindings made under the configuration, the tables of [C] and [T] among them. *)
Example ex_kotlin : exists b, ci_bindings ex_conf (g_items ex) = Ok b /\
  map (fun y => option_map (fun t => method_names (t_slots t)) (y_table y)) (filter (fun y => match y_table y with Some _ => true | None => false end) (b_types b)) =
    [Some [S_ "go"]; Some [S_ "second"; S_ "first"]] /\
  exists l, scaffolding (S_ "a") no_remote no_arc (api_of ex) = Some l /\ forall s, In s (b_declared b) -> In s l.
Proof.
  ci_of ex_conf ex EB. eexists. split; [exact EB |]. split; [vm_compute; reflexivity |].
  exact (ci_linked_proof ex _ no_remote no_arc _ _ ex_udl ex_traits ex_keeps EB).
Qed.
Example ex_python : exists n b, pipeline [ex] = Ok [n] /\ pl_bindings ex_conf n = Ok b /\
  exists l, scaffolding (S_ "a") no_remote no_arc (api_of ex) = Some l /\ forall s, In s (b_declared b) -> In s l.
Proof.
  pl_of ex_conf ex EP EB. eexists. eexists. split; [exact EP |]. split; [exact EB |].
  exact (pl_linked_proof [ex] _ ex _ _ no_remote no_arc _ _ ex_grouped ex_dashes ex_pl EP (or_introl eq_refl) (or_introl eq_refl) eq_refl ex_udl ex_traits EB).
Qed.
Example ex_python_table : exists n b y t, pipeline [ex] = Ok [n] /\ pl_bindings ex_conf n = Ok b /\ In y (b_types b) /\
  callback (y_item y) /\ y_table y = Some t /\ method_names (t_slots t) = [S_ "second"; S_ "first"].
Proof.
  pl_of ex_conf ex EP EB. eexists. eexists.
  match type of EB with _ = Ok ?b => let y := eval vm_compute in (find (fun y => match y_item y with MCallback _ _ _ => true | _ => false end) (b_types b)) in
    match y with Some ?y => exists y; let t := eval vm_compute in (y_table y) in match t with Some ?t => exists t end end end.
  split; [exact EP |]. split; [exact EB |]. split; [vm_compute; tauto |]. split; [exact Logic.I |]. split; [reflexivity | vm_compute; reflexivity].
Qed.

(** An error that a callback interface throws. *)
Definition oops : enum_meta := Enum (S_ "a") (S_ "E") None (ShError true) None [Variant (S_ "V") None None [] None] false None.
Definition ask : fn_meta := Fn (S_ "a") (S_ "ask") None false [] (Some TU8) (Some (TEnum (S_ "a") (S_ "E"))) None None.
Definition catches : group := Group (S_ "a") (S_ "a") [MEnum oops; MCallback (S_ "a") (S_ "C") None; MTraitMethod (S_ "C") 0%Z ask].
Lemma catches_udl : from_udl catches (api_of catches).
Proof.
  from_tac catches. intros m J. cbn [g_items catches] in J. items_cases; cbn [udl_item oops].
  - repeat split; repeat constructor.
  - reflexivity.
  - split; [fn_tac |]. exists (S_ "a"), None. right. left. reflexivity.
Qed.
Lemma catches_flat : sent_flat (g_items catches) oops.
Proof. split; [left; exists oops, true; split; [left; reflexivity | split; reflexivity] | split; [repeat constructor | discriminate]]. Qed.
Lemma catches_thrown : thrown_to_rust (g_items catches) oops.
Proof.
  exists (MTraitMethod (S_ "C") 0%Z ask), ask, (MCallback (S_ "a") (S_ "C") None).
  split; [right; right; left; reflexivity | split; [reflexivity | split; [reflexivity | split; [right; left; reflexivity | split; [exact Logic.I | reflexivity]]]]].
Qed.
