(** Names that meet the hypotheses, and names for which the bindings go wrong. *)
From Verif Require Import Idn_Model Idn_Spec Idn_Words Idn_Proofs Idn_Distinct Idn_Claims.
Open Scope string_scope.
Open Scope list_scope.

(** * Deciding the conventions *)
Definition smallb (c : ascii) : bool := is_lower c || is_digit c.
Definition camel_wordb (w : text) : bool :=
  match w with c :: r => is_upper c && forallb smallb r | [] => false end.
Definition second_lowerb (w : text) : bool := match w with _ :: b :: _ => is_lower b | _ => false end.
Fixpoint spacedb (ws : list text) : bool :=
  match ws with
  | v :: ((w :: _) as rest) => (existsb is_lower v || second_lowerb w) && spacedb rest
  | _ => true
  end.
Lemma small_ok w : forallb smallb w = true -> Forall small w.
Proof.
  intros H. apply Forall_forall. intros c I. rewrite forallb_forall in H.
  specialize (H c I). now apply orb_prop in H.
Qed.
Lemma camel_ok ws : match ws with [] => false | _ => true end = true -> forallb camel_wordb ws = true -> spacedb ws = true ->
  camel_of ws (concat ws).
Proof.
  intros N F S. split; [now destruct ws|]. split; [|split; [|reflexivity]].
  - apply Forall_forall. intros w I. rewrite forallb_forall in F. specialize (F w I).
    destruct w as [|c r]; [discriminate|]. apply andb_prop in F as [U R].
    exists c, r. split; [reflexivity|]. split; [assumption | now apply small_ok].
  - clear N F. induction ws as [|v ws IH]; [exact I|]. destruct ws as [|w ws]; [exact I|].
    cbn [spacedb] in S. apply andb_prop in S as [S R]. cbn [spaced]. split; [|now apply IH].
    apply orb_prop in S as [S | S].
    + left. apply existsb_exists in S as (c & I & L). now exists c.
    + right. destruct w as [|a [|b w]]; try discriminate. now exists a, b, w.
Qed.
Definition snake_wordb (w : text) : bool :=
  match w with c :: r => is_lower c && forallb smallb r | [] => false end.
Lemma snake_ok ws : match ws with [] => false | _ => true end = true -> forallb snake_wordb ws = true ->
  snake_of ws (join (t "_") ws) /\ Forall starts_with_letter ws.
Proof.
  intros N F. rewrite forallb_forall in F. split; [split; [now destruct ws | split; [|reflexivity]]|].
  - apply Forall_forall. intros w I. specialize (F w I). destruct w as [|c r]; [discriminate|].
    apply andb_prop in F as [U R]. split; [discriminate|]. constructor; [now left | now apply small_ok].
  - apply Forall_forall. intros w I. specialize (F w I). destruct w as [|c r]; [discriminate|].
    apply andb_prop in F as [U R]. exists c, r. split; [reflexivity | now left].
Qed.
Ltac a_type ws := exists (map t ws); apply (camel_ok (map t ws)); reflexivity.
Ltac a_function ws := exists (map t ws); apply (snake_ok (map t ws)); reflexivity.

(** * Names that follow the conventions *)
Example http_server : camel_case (t "HttpServer").
Proof. a_type ["Http"; "Server"]. Qed.
Example x_axis : camel_case (t "XAxis").
Proof. a_type ["X"; "Axis"]. Qed.
Example network_error : camel_case (t "NetworkError").
Proof. a_type ["Network"; "Error"]. Qed.
Example get_utf8_name : plain_snake_case (t "get_utf8_name").
Proof. a_function ["get"; "utf8"; "name"]. Qed.
Example is_open : plain_snake_case (t "is_open").
Proof. a_function ["is"; "open"]. Qed.

Example ex_rendered :
  map (fun l => (rendered l true AType (t "NetworkError"), rendered l false AFunction (t "get_utf8_name"),
                 rendered l false AVariable (t "class"), rendered l false AVariant (t "XAxis")))
    [Kotlin; KotlinJni; Swift; Python; Ruby] =
  [(t "NetworkException", t "`getUtf8Name`", t "`class`", t "X_AXIS");
   (t "`NetworkException`", t "`getUtf8Name`", t "`class`", t "`X_AXIS`");
   (t "NetworkError", t "getUtf8Name", t "`class`", t "xAxis");
   (t "NetworkError", t "get_utf8_name", t "_class", t "X_AXIS");
   (t "NetworkError", t "get_utf8_name", t "_class", t "X_AXIS")].
Proof. vm_compute. reflexivity. Qed.
Example ex_valid : letter_led (t "_get_HTTPName2_") /\
  (forall l, ~ awkward l AFunction (t "_get_HTTPName2_")) /\ ~ camel_case (t "_get_HTTPName2_").
Proof.
  split; [|split].
  - exists (t "_"), "g"%char, (t "et_HTTPName2_"). split; [reflexivity|]. split; [repeat constructor | now left].
  - intros []; cbn; auto.
  - intros C. destruct C as ([|w ws] & N & F & _ & E); [contradiction|].
    inversion F as [|? ? (c & r & -> & U & _) _]; subst. injection E as <- _. discriminate U.
Qed.
Example ex_collide : rendered Kotlin true AType (t "IOError") = rendered Kotlin false AType (t "IoException").
Proof. reflexivity. Qed.
Example ex_spelled : words_of AVariable [t "in"; t "2"] (t "in_2").
Proof.
  split; [discriminate|]. split; [|reflexivity].
  constructor; [split; [discriminate | now apply small_ok]|]. constructor; [|constructor].
  split; [discriminate | now apply small_ok].
Qed.
Example ex_kept : map (fun l => meant (rendered l false AType (t "HttpServer"))) [Kotlin; KotlinJni; Swift; Python; Ruby]
    = [t "HttpServer"; t "HttpServer"; t "HttpServer"; t "HttpServer"; t "HttpServer"] /\
  py_type_name (t "None") = t "_None" /\ py_function_name (t "import") = t "_import".
Proof. vm_compute. auto. Qed.
Example ex_default : py_default_variant (t "HttpMode") (t "KeepAlive") = (t "HttpMode", t "KEEP_ALIVE").
Proof. reflexivity. Qed.
Example ex_parameters : Forall (idiomatic AVariable) [t "is_open"; t "get_utf8_name"] /\
  py_parameters [t "is_open"; t "get_utf8_name"] = [t "self"; t "is_open"; t "get_utf8_name"].
Proof. split; [repeat constructor; [exact is_open | exact get_utf8_name] | reflexivity]. Qed.
Example ex_kotlin_functions :
  NoDup (map (fun p => (meant (fst p), snd p)) (kt_object_functions [(t "is_open", 0); (t "close", 1)])).
Proof.
  apply kotlin_functions.
  - repeat constructor; [exact is_open | a_function ["close"]].
  - constructor; [intros [E | []]; discriminate E | repeat constructor; auto].
  - intros n H [E | [E | []]]; [|discriminate E]. injection E as <-.
    destruct H as [H | [H | [H | []]]]; discriminate H.
Qed.
Example ex_python_enum : py_enum_methods [t "Circle"; t "XAxis"] [t "area"] =
  map t ["__init__"; "is_CIRCLE"; "is_circle"; "is_X_AXIS"; "is_x_axis"; "area"].
Proof. reflexivity. Qed.
Example ex_companions : flat_map (fun p => object_names Kotlin (snd p) (fst p)) [(t "Store", false); (t "Loader", true)] =
  map t ["StoreInterface"; "Store"; "Loader"; "LoaderImpl"].
Proof. reflexivity. Qed.
Example ex_borrowed : swift_borrowed_name (t "raw_data") = t "rawDataFb".
Proof. reflexivity. Qed.

(** * Refutations *)
Definition langs : list lang := [Kotlin; KotlinJni; Swift; Python; Ruby].
Lemma same_everywhere :
  t "foo_bar" <> t "foo__bar" /\ t "HTTPServer" <> t "HttpServer" /\
  (forall l, rendered l false AFunction (t "foo_bar") = rendered l false AFunction (t "foo__bar")) /\
  (forall l, rendered l false AType (t "HTTPServer") = rendered l false AType (t "HttpServer")) /\
  (forall l, rendered l false AFunction (t "a_1") = rendered l false AFunction (t "a1") <->
     l <> Python /\ l <> Ruby).
Proof.
  split; [discriminate|]. split; [discriminate|]. split; [intros []; reflexivity|].
  split; [intros []; reflexivity|].
  intros []; cbv -[not iff]; split; try (intros; reflexivity); try (intros _; split; discriminate);
    try discriminate; intros [A B]; contradiction.
Qed.
Lemma errors_meet :
  camel_case (t "NetworkError") /\ camel_case (t "NetworkException") /\
  (forall l, in_kotlin l ->
    rendered l true AType (t "NetworkError") = rendered l false AType (t "NetworkException")).
Proof.
  split; [exact network_error|]. split; [a_type ["Network"; "Exception"]|].
  intros l [-> | ->]; reflexivity.
Qed.
Lemma not_names :
  rust_name (t "_1") /\ rust_name (t "__") /\
  rendered Swift false AVariable (t "_1") = t "1" /\ rendered Python false AVariable (t "_1") = t "1" /\
  rendered Ruby false AVariable (t "_1") = t "1" /\ ~ plain (t "1") /\
  (forall l, meant (rendered l false AVariable (t "__")) = []).
Proof.
  assert (R : forall n, forallb (fun c => is_lower c || is_upper c || is_digit c || Ascii.eqb c "_") n = true ->
    Forall (fun c => letter c \/ digit c \/ c = "_"%char) n).
  { intros n H. apply Forall_forall. intros c I. rewrite forallb_forall in H. specialize (H c I).
    unfold letter, digit. apply orb_prop in H as [H | H]; [|apply Ascii.eqb_eq in H; auto].
    apply orb_prop in H as [H | H]; auto. apply orb_prop in H as [H | H]; auto. }
  split; [|split; [|split; [reflexivity | split; [reflexivity | split; [reflexivity | split]]]]].
  - split; [now apply R|]. split; [discriminate|]. split; [discriminate|].
    intros c r E. injection E as <- _. discriminate.
  - split; [now apply R|]. split; [discriminate|]. split; [discriminate|].
    intros c r E. injection E as <- _. discriminate.
  - intros [_ (c & r & E & D)]. injection E as <- _. now apply D.
  - intros []; reflexivity.
Qed.
Lemma ruby_in : letter_led (t "in_") /\ ~ accepted Ruby AVariable (rendered Ruby false AVariable (t "in_")).
Proof.
  split.
  - exists [], "i"%char, (t "n_"). split; [reflexivity|]. split; [constructor | now left].
  - intros (_ & _ & N). apply N. apply listed_In. vm_compute. reflexivity.
Qed.
Lemma ruby_begin : camel_case (t "Begin") /\ camel_case (t "End") /\
  ~ accepted Ruby AVariant (rendered Ruby false AVariant (t "Begin")) /\
  ~ accepted Ruby AVariant (rendered Ruby false AVariant (t "End")).
Proof.
  split; [a_type ["Begin"]|]. split; [a_type ["End"]|]. split; intros (_ & _ & N); apply N;
    apply listed_In; vm_compute; reflexivity.
Qed.
Lemma swift_any : camel_case (t "Any") /\ ~ accepted Swift AType (rendered Swift false AType (t "Any")) /\
  swift_error_variant_declared (t "Any") = t "Any" /\ swift_error_variant_used (t "Any") = t "`Any`".
Proof.
  split; [a_type ["Any"]|]. split; [|split; reflexivity].
  intros [(x & Q & _) | [_ N]]; [discriminate Q | apply N, listed_In; vm_compute; reflexivity].
Qed.
Lemma swift_borrowed_default :
  plain_snake_case (t "default") /\ swift_borrowed_name (t "default") = t "`default`Fb" /\
  ~ accepted Swift AVariable (swift_borrowed_name (t "default")).
Proof.
  split; [a_function ["default"]|]. split; [reflexivity|].
  intros [(x & Q & _) | [[F _] _]].
  - unfold in_quotes in Q. apply (f_equal (@rev ascii)) in Q. rewrite !rev_app_distr in Q. discriminate Q.
  - inversion F as [|? ? [[H | H] | [H | H]] _]; discriminate H.
Qed.
Lemma python_self :
  letter_led (t "self_") /\ py_parameters [t "self_"] = [t "self"; t "self"] /\
  plain_snake_case (t "self") /\ py_parameters [t "self"] = [t "self"; t "self"].
Proof.
  split; [|split; [reflexivity | split; [a_function ["self"] | reflexivity]]].
  exists [], "s"%char, (t "elf_"). split; [reflexivity|]. split; [constructor | now left].
Qed.
Lemma kotlin_close :
  plain_snake_case (t "close") /\
  ~ NoDup (map (fun p => (meant (fst p), snd p)) (kt_object_functions [(t "close", 0)])) /\
  plain_snake_case (t "message") /\ ~ NoDup (map meant (kt_error_properties [t "message"])).
Proof.
  split; [a_function ["close"]|]. split; [|split; [a_function ["message"]|]].
  - vm_compute. intros D. inversion D as [|? ? _ D']; subst. inversion D' as [|? ? N _]; subst.
    apply N. cbn. auto.
  - vm_compute. intros D. inversion D as [|? ? N _]; subst. apply N. cbn. auto.
Qed.
Lemma ruby_initialize : plain_snake_case (t "initialize") /\ ~ NoDup (rb_object_methods true [t "initialize"]).
Proof.
  split; [a_function ["initialize"]|]. vm_compute. intros D. inversion D as [|? ? _ D']; subst.
  inversion D' as [|? ? N _]; subst. apply N. cbn. auto.
Qed.
Lemma python_modules :
  plain_snake_case (t "datetime") /\ plain_snake_case (t "platform") /\ plain_snake_case (t "os") /\
  In (py_function_name (t "datetime")) py_imports /\ In (py_function_name (t "platform")) py_imports /\
  In (py_function_name (t "os")) py_imports.
Proof.
  split; [a_function ["datetime"]|]. split; [a_function ["platform"]|]. split; [a_function ["os"]|].
  repeat split; apply listed_In; reflexivity.
Qed.
Lemma python_is :
  camel_case (t "Circle") /\ plain_snake_case (t "is_circle") /\
  ~ NoDup (py_enum_methods [t "Circle"] [t "is_circle"]).
Proof.
  split; [a_type ["Circle"]|]. split; [a_function ["is"; "circle"]|]. vm_compute. intros D.
  inversion D as [|? ? _ D']; subst. inversion D' as [|? ? _ D'']; subst.
  inversion D'' as [|? ? N _]; subst. apply N. cbn. auto.
Qed.
Lemma companions_meet :
  object_names Kotlin false (t "Foo") = [t "FooInterface"; t "Foo"] /\
  rendered Kotlin false AType (t "FooInterface") = t "FooInterface" /\
  object_names Swift false (t "Foo") = [t "FooProtocol"; t "Foo"] /\
  rendered Swift false AType (t "FooProtocol") = t "FooProtocol" /\
  object_names Python true (t "Foo") = [t "Foo"; t "FooImpl"] /\
  rendered Python false AType (t "FooImpl") = t "FooImpl".
Proof. repeat split. Qed.
Lemma used_otherwise :
  jni_callback_declared (t "X_Y") = t "`Xy`" /\ jni_type_used (t "X_Y") = t "`XY`" /\
  fst (py_default_variant (t "HTTPMode") (t "On")) = t "HTTPMode" /\
  fst (py_declared_variant (t "HTTPMode") (t "On")) = t "HttpMode" /\
  camel_case (t "Shape") /\ camel_case (t "Empty") /\
  kt_default_variant false (t "Shape") (t "Empty") = (t "Shape", t "EMPTY") /\
  kt_declared_variant true false false (t "Shape") (t "Empty") = (t "Shape", t "Empty").
Proof.
  repeat (split; [reflexivity|]). split; [a_type ["Shape"]|]. split; [a_type ["Empty"]|]. split; reflexivity.
Qed.
