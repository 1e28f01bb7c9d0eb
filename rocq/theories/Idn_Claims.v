(** What follows for the names in the bindings. *)
From Verif Require Import Idn_Model Idn_Spec Idn_Words Idn_Proofs Idn_Distinct.

(** * Only names with the same letters can meet *)
Lemma collide l w (err : text -> bool) n m :
  rendered l (err n) w n = rendered l (err m) w m ->
  letters n = letters m \/
  (in_kotlin l /\ exists s,
    (letters n = s ++ t "error" /\ letters m = s ++ t "exception") \/
    (letters m = s ++ t "error" /\ letters n = s ++ t "exception")).
Proof.
  intros E. apply (f_equal letters) in E.
  destruct (letters_rendered l (err n) w n) as [N | (K & s & N & N')],
    (letters_rendered l (err m) w m) as [M | (K' & s' & M & M')].
  - left. congruence.
  - right. split; [assumption|]. exists s'. right. split; [assumption | congruence].
  - right. split; [assumption|]. exists s. left. split; [assumption | congruence].
  - left. rewrite N', M' in E. apply app_inv_tail in E. congruence.
Qed.

(** * The words of a name are kept *)
Lemma meant_id x : Forall name_char x -> meant x = x.
Proof.
  induction 1 as [|c x C _ IH]; [reflexivity|]. unfold meant in *. cbn [filter].
  apply name_char_not_quote in C. apply Ascii.eqb_neq in C. rewrite C. cbn. now rewrite IH.
Qed.
Lemma meant_quoted x : Forall name_char x -> meant (quoted x) = x.
Proof.
  intros F. unfold quoted, meant. rewrite !filter_app. change (filter _ (t "`")) with (@nil ascii).
  rewrite app_nil_r. now apply meant_id.
Qed.
Lemma python_listed x : In x python_keywords -> In x python_words \/ x = t "__peg_parser__".
Proof.
  intros I. assert (H : listed x (python_words ++ [t "__peg_parser__"]) = true).
  { revert x I. apply all_In. vm_compute. reflexivity. }
  apply listed_In, in_app_or in H as [H | [H | []]]; auto.
Qed.
Lemma ruby_listed x : In x ruby_reserved -> In x ruby_words /\ x <> t "in".
Proof.
  intros I. split.
  - apply listed_In. revert x I. apply all_In. vm_compute. reflexivity.
  - intros ->. apply listed_In in I. discriminate I.
Qed.
Lemma suffixed_error l err w x :
  if an_exception l err w then as_exception x (suffixed l err w x) else suffixed l err w x = x.
Proof.
  destruct l, w; cbn; try reflexivity; try apply convert_as_exception;
    destruct err; try reflexivity; apply convert_as_exception.
Qed.
Lemma as_exception_chars x y : Forall name_char x -> as_exception x y -> Forall name_char y.
Proof.
  intros F [(s & -> & ->) | [_ ->]]; [|assumption].
  apply Forall_app in F as [F _]. apply Forall_app. split; [assumption | now apply all_alnum].
Qed.
Lemma words_of_alnum w ws n : words_of w ws n ->
  ws <> [] /\ Forall (fun v => v <> [] /\ Forall (fun c => is_alnum c = true) v) ws.
Proof.
  assert (S : snake_of ws n -> ws <> [] /\ Forall (fun v => v <> [] /\ Forall (fun c => is_alnum c = true) v) ws).
  { intros (N & F & _). split; [assumption|]. eapply Forall_impl; [|exact F]. cbn. intros v [V S].
    split; [assumption|]. eapply Forall_impl; [|exact S]. apply small_alnum. }
  assert (C : camel_of ws n -> ws <> [] /\ Forall (fun v => v <> [] /\ Forall (fun c => is_alnum c = true) v) ws).
  { intros (N & F & _). split; [assumption|]. eapply Forall_impl; [|exact F]. cbn. intros v V.
    split; [|now apply camel_word_alnum]. now destruct V as (c & r & -> & _). }
  destruct w; cbn; auto.
Qed.
Lemma styled_alnum_first s ws :
  ws <> [] -> Forall (fun v => v <> [] /\ Forall (fun c => is_alnum c = true) v) ws ->
  exists c r, styled s ws = c :: r /\ is_alnum c = true.
Proof.
  intros N F. destruct F as [|v ws [V A] F]; [contradiction|]. destruct v as [|c v]; [contradiction|].
  inversion A; subst. destruct (styled_first s c v ws) as [x X]. exists (first_as s c), x.
  split; [assumption|]. unfold first_as. destruct (first_upper s); [now rewrite alnum_upper | now rewrite alnum_lower].
Qed.
Lemma as_exception_not_peg x y : (exists c r, x = c :: r /\ is_alnum c = true) -> as_exception x y ->
  exists c r, y = c :: r /\ is_alnum c = true.
Proof.
  intros (c & r & -> & A) [(s & E & ->) | [_ ->]]; [|eauto].
  destruct s as [|d s]; cbn in *; [now exists "E"%char, (t "xception")|]. injection E as <- _. eauto.
Qed.
Lemma spelled l err w ws n : words_of w ws n ->
  exists y,
    (if an_exception l err w then as_exception (styled (style_of l w) ws) y
     else y = styled (style_of l w) ws) /\
    (meant (rendered l err w n) = y \/ (underscored l w y /\ rendered l err w n = t "_" ++ y)).
Proof.
  intros W. rewrite rendered_base. unfold base. rewrite (words_idiomatic _ _ _ W).
  destruct (words_of_alnum _ _ _ W) as [N A].
  assert (CH : Forall name_char (styled (style_of l w) ws)).
  { apply name_chars_styled. eapply Forall_impl; [|exact A]. now intros v [_ V]. }
  pose proof (styled_alnum_first (style_of l w) ws N A) as FST.
  pose proof (suffixed_error l err w (styled (style_of l w) ws)) as SE.
  set (x := styled (style_of l w) ws) in *. clearbody x.
  set (y := suffixed l err w x) in *. clearbody y.
  assert (FY : Forall name_char y).
  { destruct (an_exception l err w); [eapply as_exception_chars; eassumption | now subst]. }
  assert (HY : exists c r, y = c :: r /\ is_alnum c = true).
  { destruct (an_exception l err w); [eapply as_exception_not_peg; eassumption | now subst]. }
  exists y. split; [exact SE|].
  assert (Q : meant (quoted y) = y) by now apply meant_quoted.
  assert (I : meant y = y) by now apply meant_id.
  assert (SW : meant (quote_general_keyword y) = y).
  { unfold quote_general_keyword. now destruct (listed y swift_keywords). }
  assert (PY : meant (fixup_keyword y) = y \/ (In y python_words /\ fixup_keyword y = t "_" ++ y)).
  { unfold fixup_keyword. destruct (listed y python_keywords) eqn:M; [|now left].
    right. split; [|reflexivity]. apply listed_In in M. apply python_listed in M as [M | ->]; [assumption|].
    destruct HY as (c & r & E & C). injection E as <- _. discriminate C. }
  destruct l; cbn [protect underscored].
  - left. destruct w; assumption.
  - left. assumption.
  - left. destruct w; assumption.
  - exact PY.
  - destruct w; cbn [protect]; auto. destruct (listed y ruby_reserved) eqn:M; [|now left].
    right. split; [|reflexivity]. apply listed_In in M. now apply ruby_listed.
Qed.

Lemma kept_types l n : camel_case n ->
  meant (rendered l false AType n) = n \/ (l = Python /\ In n python_words).
Proof.
  intros [ws C]. pose proof (upper_camel_camel n (ex_intro _ ws C)) as U.
  unfold to_upper_camel_case in U. rewrite (words_camel _ _ C) in U.
  destruct (spelled l false AType ws n C) as (y & Y & M).
  assert (y = n) as ->.
  { replace (an_exception l false AType) with false in Y by now destruct l. rewrite Y.
    destruct l; exact U. }
  destruct M as [M | [M _]]; [now left|]. right. destruct l; try contradiction. auto.
Qed.
Lemma snake_snake n : snake_case n -> to_snake_case n = n.
Proof.
  intros [ws S]. unfold to_snake_case. rewrite (words_snake _ _ S). destruct S as (_ & F & ->).
  f_equal. induction F as [|w ws [_ H] _ IH]; [reflexivity|]. cbn [map]. rewrite IH. f_equal.
  now apply lower_small_id.
Qed.
Lemma snake_head n : snake_case n -> exists c r, n = c :: r /\ is_alnum c = true.
Proof.
  intros (ws & N & F & ->). destruct F as [|w ws [W S] _]; [contradiction|].
  destruct w as [|c w]; [contradiction|]. inversion S; subst. rewrite join_cons. cbn [app].
  eexists c, _. split; [reflexivity | now apply small_alnum].
Qed.
Lemma kept_functions n : snake_case n ->
  rb_fn_name n = n /\
  (py_function_name n = n \/ (py_function_name n = t "_" ++ n /\ In n python_words)).
Proof.
  intros S. unfold rb_fn_name, py_function_name, fixup_keyword. rewrite (snake_snake n S).
  split; [reflexivity|]. destruct (listed n python_keywords) eqn:M; [|now left].
  right. split; [reflexivity|]. apply listed_In in M. apply python_listed in M as [M | ->]; [assumption|].
  destruct (snake_head _ S) as (c & r & E & C). injection E as <- _. discriminate C.
Qed.

(** * Used as declared *)
Lemma jni_agree n : camel_case n -> jni_callback_declared n = jni_type_used n.
Proof.
  intros C. unfold jni_callback_declared, jni_type_used, jni_class_name.
  now rewrite !(upper_camel_camel n C).
Qed.
Lemma default_agree ty v : camel_case ty -> ~ In ty python_words ->
  py_default_variant ty v = py_declared_variant ty v.
Proof.
  intros C N. unfold py_default_variant, py_declared_variant, py_type_name, fixup_keyword.
  rewrite (upper_camel_camel ty C). destruct (listed ty python_keywords) eqn:M; [|reflexivity].
  apply listed_In in M. apply python_listed in M as [M | ->]; [contradiction|].
  destruct (idiomatic_letter_led AType _ C) as (us & c & r & E & U & L).
  destruct C as (ws & W & F & _ & E'). destruct ws as [|w ws]; [contradiction|].
  inversion F as [|? ? (d & q & -> & D & _) _]; subst. injection E' as <- _. discriminate D.
Qed.

(** * Types and functions do not meet *)
Lemma meant_protect_first l w x c r : plain x -> x = c :: r ->
  meant (protect l w x) = x \/ meant (protect l w x) = t "_" ++ x.
Proof.
  intros [F _] _.
  assert (Q : meant (quoted x) = x) by now apply meant_quoted.
  assert (I : meant x = x) by now apply meant_id.
  assert (U : meant (t "_" ++ x) = t "_" ++ x).
  { unfold meant in *. rewrite filter_app. cbn [app]. rewrite I. reflexivity. }
  destruct l, w; cbn [protect]; unfold quote_general_keyword, fixup_keyword; auto;
    match goal with |- context [listed ?a ?b] => destruct (listed a b) end; auto.
Qed.
Lemma apart l err n m : letter_led n -> letter_led m ->
  meant (rendered l err AType n) <> meant (rendered l err AFunction m).
Proof.
  intros N M E. rewrite !rendered_base in E.
  destruct (suffixed_first l err AType n N) as [P (c & r & X & C & U)].
  destruct (suffixed_first l err AFunction m M) as [Q (d & q & Y & D & V)].
  assert (U' : is_upper c = true) by (rewrite U; now destruct l).
  assert (V' : is_upper d = false) by (rewrite V; now destruct l).
  destruct (meant_protect_first l AType _ _ _ P X) as [E1 | E1],
    (meant_protect_first l AFunction _ _ _ Q Y) as [E2 | E2]; rewrite E1, E2, X, Y in E; cbn in E;
    injection E as E3 _; subst; first [congruence | discriminate U' | discriminate V' | now destruct C | now destruct D].
Qed.

(** * The bindings' own names in Python *)
Lemma python_shape err w n x : rendered Python err w n = t "_" ++ x -> In x python_keywords.
Proof.
  rewrite rendered_base. replace (suffixed Python err w (base Python w n)) with (base Python w n)
    by now destruct w.
  cbn [protect]. unfold fixup_keyword. destruct (listed (base Python w n) python_keywords) eqn:M.
  - intros E. apply app_inv_head in E. subst x. now apply listed_In.
  - unfold base. pose proof (words_nonempty n) as N. pose proof (words_alnum n) as A.
    destruct (words n) as [|v ws].
    + destruct (style_of Python w); discriminate.
    + intros E. exfalso.
      destruct (styled_alnum_first (style_of Python w) (v :: ws)) as (c & r & F & C).
      * discriminate.
      * rewrite Forall_forall in *. auto.
      * rewrite F in E. injection E as -> _. discriminate C.
Qed.
Lemma python_own err w n : ~ In (rendered Python err w n) (py_object_own ++ py_body_own).
Proof.
  intros I.
  assert (H : forallb (fun y => match y with
      | c :: x => Ascii.eqb c "_" && negb (listed x python_keywords)
      | [] => false end) (py_object_own ++ py_body_own) = true) by (vm_compute; reflexivity).
  rewrite forallb_forall in H. specialize (H _ I).
  destruct (rendered Python err w n) as [|c x] eqn:E; [discriminate|].
  apply andb_prop in H as [C L]. apply Ascii.eqb_eq in C. subst c.
  apply negb_true_iff, not_listed in L. apply L. now apply (python_shape err w n).
Qed.
Fixpoint prefix_of (p x : text) : bool :=
  match p, x with
  | [], _ => true
  | c :: p, d :: x => Ascii.eqb c d && prefix_of p x
  | _, [] => false
  end.
Lemma prefix_of_app p x : prefix_of p (p ++ x) = true.
Proof. induction p as [|c p IH]; [reflexivity|]. cbn. now rewrite Ascii.eqb_refl, IH. Qed.
Lemma python_prefixes err w n x :
  rendered Python err w n <> t "_uniffi" ++ x /\ rendered Python err w n <> t "_Uniffi" ++ x /\
  rendered Python err w n <> t "_UNIFFI" ++ x.
Proof.
  assert (K : forall p, forallb (fun k => negb (prefix_of p k)) python_keywords = true ->
    rendered Python err w n <> t "_" ++ (p ++ x)).
  { intros p H E. apply python_shape in E. rewrite forallb_forall in H. specialize (H _ E).
    now rewrite prefix_of_app in H. }
  repeat split.
  - apply (K (t "uniffi")). reflexivity.
  - apply (K (t "Uniffi")). reflexivity.
  - apply (K (t "UNIFFI")). reflexivity.
Qed.

(** * Members and parameters *)
Lemma NoDup_map_idiomatic (f : text -> text) w ns :
  (forall n m, idiomatic w n -> idiomatic w m -> f n = f m -> n = m) ->
  Forall (idiomatic w) ns -> NoDup ns -> NoDup (map f ns).
Proof.
  intros H F D. induction D as [|n ns N D IH]; [constructor|]. inversion F; subst. cbn. constructor; [|auto].
  intros I. apply in_map_iff in I as (m & E & I). rewrite Forall_forall in H3.
  assert (m = n) as -> by (apply H; auto). contradiction.
Qed.
Lemma var_inj l w n m : w = AFunction \/ w = AVariable ->
  idiomatic w n -> idiomatic w m -> rendered l false w n = rendered l false w m -> n = m.
Proof.
  intros W N M E. destruct (distinct l false false w n m N M E) as [? | (_ & [-> | ->] & _)];
    [assumption | | ]; destruct W; discriminate.
Qed.
Lemma meant_inj_kt n m : idiomatic AFunction n -> idiomatic AFunction m ->
  meant (kt_fn_name n) = meant (kt_fn_name m) -> n = m.
Proof.
  intros N M E. unfold kt_fn_name in E.
  destruct (base_first Kotlin AFunction n (idiomatic_letter_led _ _ N)) as [[P _] _].
  destruct (base_first Kotlin AFunction m (idiomatic_letter_led _ _ M)) as [[Q _] _].
  change (base Kotlin AFunction n) with (to_lower_camel_case n) in P.
  change (base Kotlin AFunction m) with (to_lower_camel_case m) in Q.
  rewrite !meant_quoted in E by assumption.
  now apply (base_inj Kotlin AFunction).
Qed.
Lemma snake_self : idiomatic AVariable (t "self").
Proof. exists [t "self"]. split; [split; [discriminate | split; [|reflexivity]]|].
  - repeat constructor; discriminate.
  - constructor; [|constructor]. exists "s"%char, (t "elf"). split; [reflexivity | now left].
Qed.
Lemma python_parameters args :
  Forall (idiomatic AVariable) args -> NoDup args -> ~ In (t "self") args ->
  NoDup (py_parameters args).
Proof.
  intros F D N. unfold py_parameters. constructor.
  - intros I. apply in_map_iff in I as (a & E & I). apply N.
    assert (a = t "self") as <-; [|assumption].
    apply (var_inj Python AVariable); auto; [| apply snake_self].
    rewrite Forall_forall in F. auto.
  - apply (NoDup_map_idiomatic _ AVariable); auto. intros n m. apply (var_inj Python AVariable). auto.
Qed.
Lemma one_word c r : is_lower c = true -> Forall small r -> idiomatic AFunction (c :: r).
Proof.
  intros L S. exists [c :: r]. split; [split; [discriminate | split; [|reflexivity]]|].
  - constructor; [|constructor]. split; [discriminate|]. constructor; [now left | assumption].
  - constructor; [|constructor]. exists c, r. split; [reflexivity | now left].
Qed.
Lemma kotlin_fixed :
  map (fun p : text * nat => (meant (fst p), snd p)) [(t "destroy", 0); (t "close", 0); (t "uniffiCloneHandle", 0)] =
  map (fun p : text * nat => (meant (kt_fn_name (fst p)), snd p))
    [(t "destroy", 0); (t "close", 0); (t "uniffi_clone_handle", 0)].
Proof. reflexivity. Qed.
Lemma smalls (s : string) : forallb (fun c => is_lower c || is_digit c) (t s) = true -> Forall small (t s).
Proof.
  intros H. apply Forall_forall. intros c I. rewrite forallb_forall in H. specialize (H c I).
  apply orb_prop in H. exact H.
Qed.
Lemma fixed_idiomatic n : In n [t "destroy"; t "close"; t "uniffi_clone_handle"] -> idiomatic AFunction n.
Proof.
  intros [<- | [<- | [<- | []]]].
  - apply one_word; [reflexivity | now apply (smalls "estroy")].
  - apply one_word; [reflexivity | now apply (smalls "lose")].
  - exists [t "uniffi"; t "clone"; t "handle"]. split; [split; [discriminate | split; [|reflexivity]]|].
    + repeat (constructor; [split; [discriminate | now apply smalls]|]). constructor.
    + repeat (constructor; [eexists _, _; split; [reflexivity | now left]|]). constructor.
Qed.
Lemma kotlin_functions methods :
  Forall (fun m => idiomatic AFunction (fst m)) methods -> NoDup methods ->
  (forall n, In n [t "destroy"; t "close"; t "uniffi_clone_handle"] -> ~ In (n, 0) methods) ->
  NoDup (map (fun p => (meant (fst p), snd p)) (kt_object_functions methods)).
Proof.
  intros F D N. unfold kt_object_functions. rewrite map_app, kotlin_fixed, map_map. cbn [fst snd].
  rewrite <- (map_app (fun p : text * nat => (meant (kt_fn_name (fst p)), snd p))
    [(t "destroy", 0); (t "close", 0); (t "uniffi_clone_handle", 0)] methods).
  assert (F' : Forall (fun m : text * nat => idiomatic AFunction (fst m))
    ([(t "destroy", 0); (t "close", 0); (t "uniffi_clone_handle", 0)] ++ methods)).
  { apply Forall_app. split; [|assumption].
    repeat (constructor; [apply fixed_idiomatic; cbn; auto|]). constructor. }
  assert (D' : NoDup ([(t "destroy", 0); (t "close", 0); (t "uniffi_clone_handle", 0)] ++ methods)).
  { cbn [app]. repeat (constructor; [|try assumption]).
    - intros [E | [E | E]]; [discriminate | discriminate | revert E; apply N; cbn; auto].
    - intros [E | E]; [discriminate | revert E; apply N; cbn; auto].
    - intros E; revert E; apply N; cbn; auto. }
  revert F' D'. generalize ([(t "destroy", 0); (t "close", 0); (t "uniffi_clone_handle", 0)] ++ methods).
  clear. intros l F D. induction D as [|p l N D IH]; [constructor|]. inversion F; subst. cbn. constructor; [|auto].
  intros I. apply in_map_iff in I as (q & E & I). apply N. destruct p as [a i], q as [b j]. cbn in *.
  injection E as E1 ->. rewrite Forall_forall in H2. pose proof (H2 _ I) as B. cbn in B.
  apply meant_inj_kt in E1; [|assumption | assumption]. now subst.
Qed.
Lemma NoDup_snoc (l : list text) x : NoDup l -> ~ In x l -> NoDup (l ++ [x]).
Proof.
  induction 1 as [|y l N D IH]; intros X; cbn; [now repeat constructor|].
  cbn in X. constructor; [|apply IH; auto].
  intros I. apply in_app_or in I as [I | [E | []]]; auto.
Qed.
Lemma kotlin_error_properties fields :
  Forall (idiomatic AVariable) fields -> NoDup fields -> ~ In (t "message") fields ->
  NoDup (map meant (kt_error_properties fields)).
Proof.
  intros F D N. unfold kt_error_properties. rewrite map_app, map_map.
  change (map meant [t "message"]) with (map (fun x => meant (kt_var_name x)) [t "message"]).
  rewrite <- map_app. apply (NoDup_map_idiomatic _ AFunction).
  - exact meant_inj_kt.
  - apply Forall_app. split; [exact F|]. constructor; [|constructor].
    apply one_word; [reflexivity | now apply (smalls "essage")].
  - now apply NoDup_snoc.
Qed.
Lemma ruby_methods primary methods :
  Forall (idiomatic AFunction) methods -> NoDup methods ->
  ~ In (t "initialize") methods -> ~ In (t "uniffi_clone_handle") methods ->
  NoDup (rb_object_methods primary methods).
Proof.
  intros F D N U.
  assert (G : rb_object_methods primary methods =
    map rb_fn_name (t "uniffi_clone_handle" :: (if primary then [t "initialize"] else []) ++ methods)).
  { unfold rb_object_methods. now destruct primary. }
  assert (I1 : idiomatic AFunction (t "uniffi_clone_handle")) by (apply fixed_idiomatic; cbn; auto).
  assert (I2 : idiomatic AFunction (t "initialize")).
  { apply one_word; [reflexivity | now apply (smalls "nitialize")]. }
  rewrite G. apply (NoDup_map_idiomatic _ AFunction).
  - intros n m. apply (var_inj Ruby AFunction). auto.
  - constructor; [assumption|]. apply Forall_app. split; [|assumption]. destruct primary; auto.
  - destruct primary; cbn [app].
    + constructor; [|constructor; assumption]. intros [E | E]; [discriminate | contradiction].
    + now constructor.
Qed.

(** * The class and the interface of an object *)
Lemma py_class_letters n : letters (py_type_name n) = letters n.
Proof.
  change (py_type_name n) with (protect Python AType (base Python AType n)).
  now rewrite letters_protect, letters_base.
Qed.
Lemma kt_class_letters n : letters (kt_class_name false n) = letters n.
Proof. apply (letters_base Kotlin AType). Qed.
Lemma swift_class_letters n : letters (swift_class_name n) = letters n.
Proof. apply (letters_base Swift AType). Qed.
Lemma object_letters l b n : l = Kotlin \/ l = Swift \/ l = Python ->
  map letters (object_names l b n) =
    (if b then fun x y => [x; y] else fun x y => [y; x])
      (letters n) (letters n ++ letters (companion l b)).
Proof.
  intros [-> | [-> | ->]]; destruct b; cbn [object_names companion];
    unfold kt_object_names, swift_object_names, py_object_names; cbn [map];
    rewrite ?letters_app, ?py_class_letters, ?kt_class_letters, ?swift_class_letters, ?letters_app;
    reflexivity.
Qed.
Lemma companions_apart l b b' x y :
  x ++ letters (companion l b) = y ++ letters (companion l b') -> b = b' /\ x = y.
Proof.
  intros E. assert (b = b') as ->.
  - apply (f_equal (@rev ascii)) in E. rewrite !rev_app_distr in E.
    destruct b, b'; try reflexivity; exfalso; destruct l; cbn in E; discriminate E.
  - split; [reflexivity|]. now apply app_inv_tail in E.
Qed.
Lemma companion_not_empty l b x : x <> x ++ letters (companion l b).
Proof.
  intros E. rewrite <- (app_nil_r x) in E at 1. apply app_inv_head in E. destruct l, b; discriminate E.
Qed.
Lemma NoDup_of_map {A B} (f : A -> B) (l : list A) : NoDup (map f l) -> NoDup l.
Proof. apply NoDup_map_inv. Qed.
Lemma companions l types : l = Kotlin \/ l = Swift \/ l = Python ->
  NoDup (map (fun p : text * bool => letters (fst p)) types) ->
  (forall n b m b', In (n, b) types -> In (m, b') types ->
    letters m <> letters n ++ letters (companion l b)) ->
  NoDup (flat_map (fun p => object_names l (snd p) (fst p)) types).
Proof.
  intros L D C. apply (NoDup_of_map letters). revert D C.
  induction types as [|[n b] types IH]; cbn [flat_map map fst snd]; intros D C; [constructor|].
  inversion D as [|? ? N D']; subst.
  assert (R : NoDup (map letters (flat_map (fun p => object_names l (snd p) (fst p)) types))).
  { apply IH; [assumption|]. intros. eapply C; cbn; eauto. }
  assert (OUT : forall x, In x (map letters (flat_map (fun p => object_names l (snd p) (fst p)) types)) ->
    exists m b', In (m, b') types /\ (x = letters m \/ x = letters m ++ letters (companion l b'))).
  { intros x I. apply in_map_iff in I as (y & <- & I). apply in_flat_map in I as ([m b'] & I & Y).
    exists m, b'. split; [assumption|]. apply (in_map letters) in Y. cbn [fst snd] in Y.
    rewrite (object_letters l b' m L) in Y. destruct b'; destruct Y as [Y | [Y | []]]; auto. }
  assert (N1 : ~ In (letters n) (map letters (flat_map (fun p => object_names l (snd p) (fst p)) types))).
  { intros I. apply OUT in I as (m & b' & I & [E | E]).
    - apply N. rewrite E. apply (in_map (fun p : text * bool => letters (fst p)) _ _ I).
    - apply (C m b' n b) in E; cbn; auto. }
  assert (N2 : ~ In (letters n ++ letters (companion l b))
    (map letters (flat_map (fun p => object_names l (snd p) (fst p)) types))).
  { intros I. apply OUT in I as (m & b' & I & [E | E]).
    - symmetry in E. apply (C n b m b') in E; cbn; auto.
    - apply companions_apart in E as [-> E]. apply N. rewrite E.
      apply (in_map (fun p : text * bool => letters (fst p)) _ _ I). }
  rewrite map_app, (object_letters l b n L).
  pose proof (companion_not_empty l b (letters n)) as NE.
  destruct b; cbn [app]; repeat constructor; try assumption; intros [E | E]; auto.
Qed.

(** * The methods of a Python enum *)
Lemma to_upper_not_lower c : is_lower (to_upper c) = false.
Proof. destruct c as [[] [] [] [] [] [] [] []]; reflexivity. Qed.
Lemma shouty_no_keyword n : letter_led n -> py_non_error_variant_name n = to_shouty_snake_case n.
Proof.
  intros L. unfold py_non_error_variant_name, fixup_keyword.
  destruct (listed (to_shouty_snake_case n) python_keywords) eqn:M; [|reflexivity]. exfalso.
  apply listed_In in M.
  assert (NL : Forall (fun c => is_lower c = false) (to_shouty_snake_case n)).
  { unfold to_shouty_snake_case. clear. induction (words n) as [|w ws IH]; [constructor|].
    assert (W : Forall (fun c => is_lower c = false) (uppercase w)).
    { unfold uppercase. apply Forall_map, Forall_forall. intros c _. apply to_upper_not_lower. }
    cbn [map]. destruct ws as [|v ws]; [cbn; exact W|].
    change (join (t "_") (uppercase w :: map uppercase (v :: ws)))
      with (uppercase w ++ t "_" ++ join (t "_") (map uppercase (v :: ws))).
    apply Forall_app. split; [assumption|]. constructor; [reflexivity | exact IH]. }
  assert (H : forallb (existsb is_lower) python_keywords = true) by (vm_compute; reflexivity).
  rewrite forallb_forall in H. specialize (H _ M). apply existsb_exists in H as (c & I & H).
  rewrite Forall_forall in NL. rewrite (NL c I) in H. discriminate.
Qed.
Lemma snake_of_shouty n : to_snake_case (to_shouty_snake_case n) = to_snake_case n.
Proof.
  unfold to_snake_case at 1, to_shouty_snake_case.
  change (join (t "_") (map uppercase (words n))) with (styled Shouty (words n)).
  rewrite shouty_words.
  - unfold to_snake_case. f_equal. rewrite map_map. apply map_ext. intros w. unfold lowercase.
    rewrite map_map. apply map_ext. apply to_lower_upper.
  - pose proof (words_nonempty n) as N. pose proof (words_alnum n) as A.
    rewrite Forall_forall in *. auto.
Qed.
Lemma checks v : letter_led v ->
  py_variant_checks v = [t "is_" ++ to_shouty_snake_case v; t "is_" ++ to_snake_case v].
Proof.
  intros L. unfold py_variant_checks. rewrite (shouty_no_keyword v L), snake_of_shouty.
  destruct (text_eqb (to_shouty_snake_case v) (to_snake_case v)) eqn:E; [|reflexivity]. exfalso.
  apply text_eqb_true in E.
  destruct (base_first Python AVariant v L) as [_ (c & r & X & _ & U)].
  destruct (base_first Python AFunction v L) as [_ (d & q & Y & _ & V)].
  change (base Python AVariant v) with (to_shouty_snake_case v) in X.
  change (base Python AFunction v) with (to_snake_case v) in Y.
  rewrite X, Y in E. injection E as -> _. cbn in U, V. congruence.
Qed.
Lemma shouty_snake_apart v w : letter_led v -> letter_led w -> to_shouty_snake_case v <> to_snake_case w.
Proof.
  intros L M E.
  destruct (base_first Python AVariant v L) as [_ (c & r & X & _ & U)].
  destruct (base_first Python AFunction w M) as [_ (d & q & Y & _ & V)].
  change (base Python AVariant v) with (to_shouty_snake_case v) in X.
  change (base Python AFunction w) with (to_snake_case w) in Y.
  rewrite X, Y in E. injection E as -> _. cbn in U, V. congruence.
Qed.
Lemma camel_words v w : camel_case v -> camel_case w ->
  to_shouty_snake_case v = to_shouty_snake_case w \/ to_snake_case v = to_snake_case w -> v = w.
Proof.
  intros V W E.
  destruct (idiomatic_words AType v V) as (vs & V1 & V2 & _).
  destruct (idiomatic_words AType w W) as (ws & W1 & W2 & _).
  assert (E' : map (map to_lower) vs = map (map to_lower) ws).
  { destruct E as [E | E].
    - apply (styled_lowers Shouty); auto. unfold to_shouty_snake_case in E.
      rewrite (words_idiomatic _ _ _ V1), (words_idiomatic _ _ _ W1) in E. exact E.
    - apply (styled_lowers Snake); auto. unfold to_snake_case in E.
      rewrite (words_idiomatic _ _ _ V1), (words_idiomatic _ _ _ W1) in E. exact E. }
  apply (lowers_inj AType v w vs ws V1 W1) in E'. subst.
  destruct V1 as (_ & _ & _ & ->), W1 as (_ & _ & _ & ->). reflexivity.
Qed.
Lemma NoDup_append {A} (a b : list A) :
  NoDup a -> NoDup b -> (forall x, In x a -> ~ In x b) -> NoDup (a ++ b).
Proof.
  intros D E F. induction D as [|x a N D IH]; [assumption|]. cbn. constructor.
  - intros I. apply in_app_or in I as [I | I]; [contradiction|]. apply (F x); cbn; auto.
  - apply IH. intros y I. apply F. now right.
Qed.
Lemma python_enum variants methods :
  Forall camel_case variants -> NoDup variants ->
  Forall plain_snake_case methods -> NoDup methods ->
  (forall m r, In m methods -> m <> t "is_" ++ r) ->
  NoDup (py_enum_methods variants methods).
Proof.
  intros V DV M DM NI. unfold py_enum_methods.
  assert (LL : forall v, In v variants -> letter_led v).
  { intros v I. rewrite Forall_forall in V. apply (idiomatic_letter_led AType), V, I. }
  assert (CH : forall x, In x (flat_map py_variant_checks variants) -> exists r, x = t "is_" ++ r).
  { intros x I. apply in_flat_map in I as (v & I & X). rewrite (checks v (LL v I)) in X.
    destruct X as [<- | [<- | []]]; eauto. }
  constructor.
  - intros I. apply in_app_or in I as [I | I].
    + apply CH in I as [r E]. discriminate E.
    + apply in_map_iff in I as (m & E & _). apply (python_own false AFunction m).
      change (rendered Python false AFunction m) with (py_function_name m). rewrite E.
      apply listed_In. vm_compute. reflexivity.
  - apply NoDup_append.
    + clear M DM NI CH. induction DV as [|v variants N DV IH]; [constructor|].
      inversion V as [|? ? CV FV]; subst. cbn [flat_map].
      assert (LV : letter_led v) by (apply LL; now left).
      rewrite (checks v LV). apply NoDup_append.
      * constructor; [|repeat constructor; auto]. intros [E | []]. apply app_inv_head in E.
        symmetry in E. now apply shouty_snake_apart in E.
      * apply IH; [assumption|]. intros. apply LL. now right.
      * intros x X I. apply in_flat_map in I as (w & I & Y).
        assert (LW : letter_led w) by (apply LL; now right).
        rewrite Forall_forall in FV. pose proof (FV w I) as CW.
        rewrite (checks w LW) in Y. apply N. replace v with w; [assumption|].
        destruct X as [<- | [<- | []]], Y as [E | [E | []]]; apply app_inv_head in E.
        -- apply camel_words; auto.
        -- symmetry in E. apply shouty_snake_apart in E; [contradiction | assumption | assumption].
        -- apply shouty_snake_apart in E; [contradiction | assumption | assumption].
        -- apply camel_words; auto.
    + apply (NoDup_map_idiomatic _ AFunction); auto. intros n m. apply (var_inj Python AFunction). auto.
    + intros x X I. apply CH in X as [r ->]. apply in_map_iff in I as (m & E & I).
      rewrite Forall_forall in M. destruct (M m I) as (ws & S & _).
      destruct (kept_functions m (ex_intro _ ws S)) as [_ [K | [K _]]]; rewrite K in E.
      * now apply NI in E.
      * discriminate E.
Qed.

(** * Borrowed bytes in Swift *)
Lemma swift_borrowed n : letter_led n -> (forall x, ~ in_quotes (swift_var_name n) x) ->
  accepted Swift AVariable (swift_borrowed_name n).
Proof.
  intros L Q. right.
  destruct (base_first Swift AVariable n L) as [[P _] (c & r & X & C & _)].
  change (base Swift AVariable n) with (to_lower_camel_case n) in *.
  assert (E : swift_var_name n = to_lower_camel_case n).
  { unfold swift_var_name, quote_general_keyword in *.
    destruct (listed (to_lower_camel_case n) swift_keywords); [|reflexivity].
    exfalso. now apply (Q (to_lower_camel_case n)). }
  unfold swift_borrowed_name. rewrite E. split.
  - split.
    + apply Forall_app. split; [exact P | now apply all_alnum].
    + rewrite X. eexists _, _. split; [reflexivity|]. now apply letter_not_digit.
  - intros I.
    assert (H : forallb (fun w => match rev w with "b"%char :: "F"%char :: _ => false | _ => true end)
      swift_words = true) by (vm_compute; reflexivity).
    rewrite forallb_forall in H. specialize (H _ I). rewrite rev_app_distr in H. discriminate H.
Qed.
