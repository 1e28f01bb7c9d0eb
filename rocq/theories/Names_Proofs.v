(** Proofs about symbol names. *)
From Verif Require Import Base Meta_Types Meta_Spec Names_Model Names_Spec.

(** ** Crate names *)
Lemma crate_name_head d r : crate_name (d :: r) = [] \/ exists s, crate_name (d :: r) = d :: s.
Proof.
  cbn [crate_name]. destruct r as [|e r]; [eauto|].
  destruct (byte_eqb d x3a && byte_eqb e x3a); eauto.
Qed.

Lemma crate_name_cons c d r :
  crate_name (c :: d :: r) =
  if byte_eqb c x3a && byte_eqb d x3a then [] else c :: crate_name (d :: r).
Proof. reflexivity. Qed.

Lemma ns_crate mp : ns mp = crate_name mp.
Proof.
  unfold ns. induction mp as [|c [|d r] IH]; [reflexivity|reflexivity|].
  rewrite crate_name_cons. destruct (byte_eqb c x3a && byte_eqb d x3a) eqn:E; [reflexivity|].
  destruct (crate_name_head d r) as [H | (s & H)]; rewrite H in *; [reflexivity|].
  cbn [replace_colons]. rewrite E. f_equal. exact IH.
Qed.

Lemma crate_name_plain c : (~ In x3a c) -> crate_name c = c.
Proof.
  induction c as [|a [|b r] IH]; intros N; [reflexivity|reflexivity|].
  rewrite crate_name_cons. destruct (byte_eqb_spec a x3a) as [E|E].
  - exfalso. apply N. left. auto.
  - cbn [andb]. f_equal. apply IH. intros I. apply N. right. exact I.
Qed.

(** ** Case folding *)
Lemma lower_us b : lower_byte b = x5f -> b = x5f.
Proof. destruct b; vm_compute; intros; congruence. Qed.
Lemma lower_no_us s : ~ In x5f s -> ~ In x5f (lower s).
Proof.
  unfold lower. intros N I. apply in_map_iff in I as (b & E & I). apply lower_us in E. subst. auto.
Qed.

(** ** The parts of a symbol *)
Definition marker (k : kind) : str :=
  match k with KFuncSum | KConstructorSum | KMethodSum => S_ "_checksum_" | _ => S_ "_fn_" end.
Definition tag (k : kind) : str :=
  match k with
  | KFunc | KFuncSum => S_ "func_"
  | KConstructor | KConstructorSum => S_ "constructor_"
  | KMethod | KMethodSum => S_ "method_"
  | KClone => S_ "clone_"
  | KFree => S_ "free_"
  | KVtable => S_ "init_callback_vtable_"
  end.
Definition rest (e : entity) : str :=
  match en_kind e with
  | KFunc | KFuncSum => lower (en_name e)
  | KClone | KFree | KVtable => lower (en_type e)
  | _ => lower (en_type e) ++ x5f :: lower (en_name e)
  end.

Lemma symbol_parts e :
  symbol e = S_ "uniffi_" ++ crate_name (en_mp e) ++ marker (en_kind e) ++ tag (en_kind e) ++ rest e.
Proof.
  destruct e as [k mp o n]. unfold symbol, rest. cbn [en_kind en_mp en_type en_name].
  destruct k; cbn [marker tag];
    unfold fn_symbol_name, constructor_symbol_name, method_symbol_name, clone_fn_symbol_name,
      free_fn_symbol_name, init_callback_vtable_fn_symbol_name, fn_checksum_symbol_name,
      constructor_checksum_symbol_name, method_checksum_symbol_name;
    rewrite ns_crate; reflexivity.
Qed.

Lemma split_app {A} (a b x y : list A) :
  a ++ x = b ++ y -> exists d, (a = b ++ d /\ y = d ++ x) \/ (b = a ++ d /\ x = d ++ y).
Proof.
  revert b. induction a as [|h a IH]; intros b E.
  - exists b. right. split; auto.
  - destruct b as [|g b].
    + exists (h :: a). left. split; auto.
    + injection E as -> E. destruct (IH b E) as (d & [[-> ->] | [-> ->]]); exists d; auto.
Qed.

Definition clean (c : str) : Prop := ~ occurs (S_ "_fn_") c /\ ~ occurs (S_ "_checksum_") c.

(** Nothing can be inserted before a marker without a crate's name containing one. *)
Lemma no_shift k k' r r' c d :
  clean (c ++ d) -> marker k ++ tag k ++ r = d ++ marker k' ++ tag k' ++ r' -> d = [].
Proof.
  intros [C1 C2] E. destruct d as [|a d]; [reflexivity|exfalso].
  assert (forall p d', a :: d = p ++ d' -> (p = S_ "_fn_" \/ p = S_ "_checksum_") -> False) as H.
  { intros p d' Q [-> | ->]; rewrite Q in C1, C2; [apply C1|apply C2]; exists c, d'; reflexivity. }
  clear C1 C2.
  destruct k; cbn in E;
    (injection E as <- E;
     do 3 (destruct d as [|? d]; [cbn in E; destruct k'; discriminate E|cbn in E; injection E as <- E]);
     first [ apply (H (S_ "_fn_") d); [reflexivity|auto]
           | do 6 (destruct d as [|? d];
                   [cbn in E; destruct k'; discriminate E|cbn in E; injection E as <- E]);
             apply (H (S_ "_checksum_") d); [reflexivity|auto] ]).
Qed.

Lemma same_crate k k' r r' c c' :
  clean c -> clean c' -> c ++ marker k ++ tag k ++ r = c' ++ marker k' ++ tag k' ++ r' -> c = c'.
Proof.
  intros C C' E. destruct (split_app _ _ _ _ E) as (d & [[-> H] | [-> H]]).
  - apply no_shift with (c := c') in H; auto. subst. apply app_nil_r.
  - apply no_shift with (c := c) in H; auto. subst. symmetry. apply app_nil_r.
Qed.

Lemma same_kind k k' r r' :
  marker k ++ tag k ++ r = marker k' ++ tag k' ++ r' -> k = k' /\ r = r'.
Proof.
  intros E. destruct k, k'; cbn in E; try discriminate E; split; auto;
    repeat (injection E as E); exact E.
Qed.

Lemma split_us a b x y :
  ~ In x5f a -> ~ In x5f b -> a ++ x5f :: x = b ++ x5f :: y -> a = b /\ x = y.
Proof.
  intros A B E. destruct (split_app _ _ _ _ E) as ([|h d] & [[-> H] | [-> H]]).
  - rewrite app_nil_r. injection H as ->. auto.
  - rewrite app_nil_r. injection H as ->. auto.
  - injection H as <- _. exfalso. apply A. apply in_or_app. right. left. reflexivity.
  - injection H as <- _. exfalso. apply B. apply in_or_app. right. left. reflexivity.
Qed.

Theorem distinct e e' :
  well_formed e -> well_formed e' -> disciplined e -> disciplined e' ->
  symbol e = symbol e' -> same_up_to_case e e'.
Proof.
  intros W W' (U & C) (U' & C') E. rewrite !symbol_parts in E. apply app_inv_head in E.
  pose proof (same_crate _ _ _ _ _ _ C C' E) as Q. rewrite Q in E. apply app_inv_head in E.
  apply same_kind in E as [K R].
  destruct e as [k mp o n], e' as [k' mp' o' n']. unfold same_up_to_case, rest, well_formed in *.
  cbn [en_kind en_mp en_type en_name] in *. subst k'.
  split; [reflexivity|]. split; [exact Q|].
  destruct k; subst; auto;
    apply split_us in R; auto using lower_no_us.
Qed.

Theorem collide e e' :
  well_formed e -> well_formed e' -> same_up_to_case e e' -> symbol e = symbol e'.
Proof.
  intros W W' (K & C & O & N). rewrite !symbol_parts, C, K. unfold rest. rewrite K, O, N. reflexivity.
Qed.

(** ** Both sides *)
Lemma crate_name_idem mp : crate_name (crate_name mp) = crate_name mp.
Proof.
  induction mp as [|c [|d r] IH]; [reflexivity|reflexivity|].
  rewrite crate_name_cons. destruct (byte_eqb c x3a && byte_eqb d x3a) eqn:E; [reflexivity|].
  destruct (crate_name_head d r) as [H | (s & H)]; rewrite H in *; [reflexivity|].
  rewrite crate_name_cons, E. f_equal. exact IH.
Qed.
Lemma ns_idem mp : ns (crate_name mp) = ns mp.
Proof. rewrite !ns_crate. apply crate_name_idem. Qed.

Lemma callable_renames news c : called (fold_right ci_rename c news) = called c.
Proof. induction news as [|n news IH]; [reflexivity|exact IH]. Qed.

Lemma ci_same m m' c :
  no_checksum m' = no_checksum m -> ci_callable m' = Some c -> called c = scaffolding_symbols m.
Proof.
  intros N E.
  destruct m', m; cbn [no_checksum] in N; try discriminate N; cbn [ci_callable] in E;
    try discriminate E; try (destruct u; discriminate N); injection E as <-; unfold no_checksum_fn in N; injection N; intros;
    clear N; destruct f, f0; cbn in *; subst; reflexivity.
Qed.

Lemma pipeline_same table m m' c :
  no_checksum m' = no_checksum m -> pipeline_callable (crate_name (item_mp m)) table m' = Some c ->
  called c = scaffolding_symbols m.
Proof.
  intros N E.
  destruct m', m; cbn [no_checksum] in N; try discriminate N; cbn [pipeline_callable] in E;
    try discriminate E; try (destruct u; discriminate N); injection E as <-; unfold no_checksum_fn in N; injection N; intros;
    unfold called; cbn [scaffolding_symbols c_ffi c_checksum_fn item_mp];
    unfold fn_symbol_name, constructor_symbol_name, method_symbol_name,
      fn_checksum_symbol_name, constructor_checksum_symbol_name, method_checksum_symbol_name;
    rewrite ns_idem; clear N; destruct f, f0; cbn in *; subst; reflexivity.
Qed.

Definition type_item (m : metadata) : Prop :=
  match m with MObject _ | MCallback _ _ _ => True | _ => False end.
Lemma pipeline_types_same m m' :
  no_checksum m' = no_checksum m -> type_item m ->
  pipeline_type_symbols (crate_name (item_mp m)) m' = scaffolding_symbols m.
Proof.
  intros N T. destruct m; try contradiction T; destruct m'; cbn [no_checksum] in N;
    try discriminate N; try (destruct u; discriminate N); injection N; intros; subst; cbn [pipeline_type_symbols scaffolding_symbols item_mp];
    unfold clone_fn_symbol_name, free_fn_symbol_name, init_callback_vtable_fn_symbol_name;
    rewrite ns_idem; reflexivity.
Qed.

Lemma replace_plain c : ~ In x3a c -> replace_colons c = c.
Proof. intros N. rewrite <- (crate_name_plain c N) at 1. fold (ns c). rewrite ns_crate. apply crate_name_plain, N. Qed.

Lemma builtins_same crate b : ~ In x3a crate -> builtin_macro crate b = builtin_bindings crate b.
Proof. intros N. unfold builtin_macro, builtin_bindings. rewrite (replace_plain _ N). reflexivity. Qed.

Lemma builtin_tail_inj b b' : builtin_tail b = builtin_tail b' -> b = b'.
Proof.
  destruct b as [| | | | |o r], b' as [| | | | |o' r']; try reflexivity; try discriminate;
    try (destruct o, r; discriminate); try (destruct o', r'; discriminate).
  destruct o, r, o', r'; try reflexivity; discriminate.
Qed.
Lemma builtins_distinct crate b b' :
  builtin_bindings crate b = builtin_bindings crate b' -> b = b'.
Proof.
  unfold builtin_bindings. intros E. do 3 apply app_inv_head in E. exact (builtin_tail_inj _ _ E).
Qed.
Lemma builtin_not_symbol crate b e : builtin_bindings crate b <> symbol e.
Proof. rewrite symbol_parts. discriminate. Qed.

Lemma strip_uniffi s : strip_prefix (S_ "uniffi_") (S_ "uniffi_" ++ s) = Some s.
Proof. reflexivity. Qed.
Lemma ffibuffer_inj e e' :
  ffi_buffer_symbol_name (symbol e) = ffi_buffer_symbol_name (symbol e') -> symbol e = symbol e'.
Proof.
  rewrite !symbol_parts. unfold ffi_buffer_symbol_name. rewrite !strip_uniffi. intros E.
  apply app_inv_head in E. f_equal. exact E.
Qed.
