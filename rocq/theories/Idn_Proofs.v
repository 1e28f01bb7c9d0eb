(** The names as styles of their words. *)
From Verif Require Import Idn_Model Idn_Spec Idn_Words.

Lemma capitalize_capital w : capitalize w = capital w.
Proof. reflexivity. Qed.
Lemma snake_styled n : to_snake_case n = styled Snake (words n).
Proof. reflexivity. Qed.
Lemma shouty_styled n : to_shouty_snake_case n = styled Shouty (words n).
Proof. reflexivity. Qed.
Lemma upper_styled n : to_upper_camel_case n = styled UpperCamel (words n).
Proof. reflexivity. Qed.
Lemma lower_styled n : to_lower_camel_case n = styled LowerCamel (words n).
Proof. reflexivity. Qed.

Definition base (l : lang) (w : what) (n : text) : text := styled (style_of l w) (words n).
(** What happens to the base. *)
Definition suffixed (l : lang) (err : bool) (w : what) (x : text) : text :=
  match l, w with
  | (Kotlin | KotlinJni), AType => if err then convert_error_suffix x else x
  | (Kotlin | KotlinJni), AnErrorVariant => convert_error_suffix x
  | _, _ => x
  end.
Definition protect (l : lang) (w : what) (x : text) : text :=
  match l, w with
  | Kotlin, (AFunction | AVariable) => quoted x
  | Kotlin, _ => x
  | KotlinJni, _ => quoted x
  | Swift, (AFunction | AVariable | AVariant) => quote_general_keyword x
  | Swift, _ => x
  | Python, _ => fixup_keyword x
  | Ruby, AVariable => (if listed x ruby_reserved then t "_" else []) ++ x
  | Ruby, _ => x
  end.
Lemma rendered_base l err w n : rendered l err w n = protect l w (suffixed l err w (base l w n)).
Proof. destruct l, w; reflexivity. Qed.

(** * Lists of texts *)
Lemma text_eqb_true a b : text_eqb a b = true <-> a = b.
Proof. unfold text_eqb. destruct (list_eq_dec ascii_dec a b); split; congruence. Qed.
Lemma listed_In n l : listed n l = true <-> In n l.
Proof.
  unfold listed. rewrite existsb_exists. split.
  - intros (x & I & E). apply text_eqb_true in E. now subst.
  - intros I. exists n. split; [assumption | now apply text_eqb_true].
Qed.
Lemma not_listed n l : listed n l = false <-> ~ In n l.
Proof. rewrite <- listed_In. symmetry. apply not_true_iff_false. Qed.
Lemma all_In {A} (f : A -> bool) l : forallb f l = true -> forall x, In x l -> f x = true.
Proof. intros H. now apply forallb_forall. Qed.

Lemma strip_suffix_some suf : forall n s, strip_suffix suf n = Some s -> n = s ++ suf.
Proof.
  induction n as [|c n IH]; intros s; cbn [strip_suffix].
  - destruct (text_eqb [] suf) eqn:E; [|discriminate]. intros [= <-]. now apply text_eqb_true in E.
  - destruct (text_eqb (c :: n) suf) eqn:E.
    + intros [= <-]. now apply text_eqb_true in E.
    + destruct (strip_suffix suf n) as [s'|]; [|discriminate]. intros [= <-]. cbn. f_equal. now apply IH.
Qed.
Lemma strip_suffix_none suf : forall n, strip_suffix suf n = None -> forall s, n <> s ++ suf.
Proof.
  induction n as [|c n IH]; cbn [strip_suffix]; intros H s E.
  - destruct s; [|discriminate]. cbn in E. subst suf. discriminate H.
  - destruct (text_eqb (c :: n) suf) eqn:E'; [discriminate|].
    destruct s as [|d s]; cbn in E.
    + subst suf. rewrite <- not_true_iff_false in E'. apply E'. now apply text_eqb_true.
    + injection E as -> ->. destruct (strip_suffix suf (s ++ suf)) eqn:Q; [discriminate|].
      now apply (IH eq_refl s).
Qed.
Lemma convert_as_exception x : as_exception x (convert_error_suffix x).
Proof.
  unfold convert_error_suffix, as_exception. destruct (strip_suffix (t "Error") x) as [s|] eqn:E.
  - left. exists s. split; [now apply strip_suffix_some | reflexivity].
  - right. split; [|reflexivity]. intros s. now apply strip_suffix_none.
Qed.

(** * Letters *)
Lemma letters_app a b : letters (a ++ b) = letters a ++ letters b.
Proof. unfold letters. now rewrite filter_app, map_app. Qed.
Lemma letters_concat ws : letters (concat ws) = concat (map letters ws).
Proof. induction ws as [|w ws IH]; [reflexivity|]. cbn [concat map]. now rewrite letters_app, IH. Qed.
Lemma letters_join ws : letters (join (t "_") ws) = letters (concat ws).
Proof.
  induction ws as [|w ws IH]; [reflexivity|]. destruct ws as [|v ws].
  - cbn. now rewrite app_nil_r.
  - change (join (t "_") (w :: v :: ws)) with (w ++ t "_" ++ join (t "_") (v :: ws)).
    cbn [concat] in *. rewrite !letters_app, IH, !letters_app. reflexivity.
Qed.
Lemma letters_cons c r : letters (c :: r) = (if is_alnum c then [to_lower c] else []) ++ letters r.
Proof. unfold letters. cbn. now destruct (is_alnum c). Qed.
Lemma letters_lower w : letters (map to_lower w) = letters w.
Proof.
  induction w as [|c w IH]; [reflexivity|]. cbn [map]. rewrite !letters_cons, IH, alnum_lower.
  destruct (is_alnum c); [now rewrite to_lower_lower | reflexivity].
Qed.
Lemma letters_upper w : letters (map to_upper w) = letters w.
Proof.
  induction w as [|c w IH]; [reflexivity|]. cbn [map]. rewrite !letters_cons, IH, alnum_upper.
  destruct (is_alnum c); [now rewrite to_lower_upper | reflexivity].
Qed.
Lemma letters_capital w : letters (capital w) = letters w.
Proof.
  destruct w as [|c w]; [reflexivity|]. cbn [capital]. rewrite !letters_cons, letters_lower, alnum_upper.
  destruct (is_alnum c); [now rewrite to_lower_upper | reflexivity].
Qed.
Lemma letters_map f ws : (forall w, letters (f w) = letters w) ->
  letters (concat (map f ws)) = letters (concat ws).
Proof. intros H. induction ws as [|w ws IH]; [reflexivity|]. cbn [concat map]. now rewrite !letters_app, H, IH. Qed.
Lemma letters_styled s ws : letters (styled s ws) = letters (concat ws).
Proof.
  destruct s; cbn [styled].
  - now rewrite letters_join, letters_map by apply letters_lower.
  - now rewrite letters_join, letters_map by apply letters_upper.
  - destruct ws as [|w ws]; [reflexivity|]. cbn [concat].
    now rewrite !letters_app, letters_lower, letters_map by apply letters_capital.
  - now rewrite letters_map by apply letters_capital.
Qed.
Lemma letters_words n : letters (concat (words n)) = letters n.
Proof.
  rewrite words_concat. unfold letters. f_equal.
  induction n as [|c n IH]; [reflexivity|]. cbn [filter]. destruct (is_alnum c) eqn:E; [|assumption].
  cbn [filter]. now rewrite E, IH.
Qed.
Lemma letters_base l w n : letters (base l w n) = letters n.
Proof. unfold base. now rewrite letters_styled, letters_words. Qed.
Lemma letters_quoted x : letters (quoted x) = letters x.
Proof.
  unfold quoted. rewrite !letters_app.
  replace (letters (t "`")) with (@nil ascii) by reflexivity. now rewrite app_nil_r.
Qed.
Lemma letters_protect l w x : letters (protect l w x) = letters x.
Proof.
  destruct l, w; cbn [protect]; unfold quote_general_keyword, fixup_keyword; rewrite ?letters_quoted;
    try reflexivity;
    repeat match goal with |- context [if ?b then _ else _] => destruct b end;
    rewrite ?letters_app, ?letters_quoted; reflexivity.
Qed.
Lemma letters_rendered l err w n :
  letters (rendered l err w n) = letters n \/
  (in_kotlin l /\ exists s, letters n = s ++ t "error" /\
    letters (rendered l err w n) = s ++ t "exception").
Proof.
  rewrite rendered_base, letters_protect.
  assert (E : letters (suffixed l err w (base l w n)) = letters n \/
    (in_kotlin l /\ suffixed l err w (base l w n) = convert_error_suffix (base l w n))).
  { unfold in_kotlin. destruct l; try (left; apply letters_base);
      destruct w; try (left; apply letters_base); cbn [suffixed]; try (destruct err); auto;
      left; apply letters_base. }
  destruct E as [E | [K E]]; [now left|]. rewrite E.
  destruct (convert_as_exception (base l w n)) as [(s & X & ->) | [_ ->]].
  - right. split; [assumption|]. exists (letters s). rewrite <- (letters_base l w n), X, !letters_app.
    split; reflexivity.
  - left. apply letters_base.
Qed.

(** * Accepted names *)
Lemma first_word n : letter_led n ->
  exists c r ws, words n = (c :: r) :: ws /\ letter c /\
    Forall (fun c => is_alnum c = true) r /\ Forall (Forall (fun c => is_alnum c = true)) ws.
Proof.
  intros (us & c & r & -> & U & L).
  pose proof (words_concat (us ++ c :: r)) as C.
  pose proof (words_nonempty (us ++ c :: r)) as N.
  pose proof (words_alnum (us ++ c :: r)) as A.
  rewrite filter_app in C. cbn [filter] in C. rewrite (letter_alnum _ L) in C.
  replace (filter is_alnum us) with (@nil ascii) in C.
  2: { clear -U. induction U as [|x l -> _ IH]; [reflexivity | exact IH]. }
  destruct (words (us ++ c :: r)) as [|w ws]; [discriminate|].
  inversion N; subst. destruct w as [|d w]; [contradiction|].
  cbn in C. injection C as -> _. inversion A as [|? ? A1 A2]; subst. inversion A1; subst.
  exists c, w, ws. auto.
Qed.
Definition name_char (c : ascii) : Prop := letter c \/ digit c \/ c = "_"%char.
Lemma alnum_name_char c : is_alnum c = true -> name_char c.
Proof. intros H. destruct (alnum_cases _ H); unfold name_char; auto. Qed.
Lemma underscore_char : Forall name_char (t "_").
Proof. constructor; [right; now right | constructor]. Qed.
Lemma all_alnum w : forallb is_alnum w = true -> Forall name_char w.
Proof. intros H. apply Forall_forall. intros c I. apply alnum_name_char. revert c I. now apply all_In. Qed.
Lemma name_chars_map f w : (forall c, is_alnum (f c) = is_alnum c) ->
  Forall (fun c => is_alnum c = true) w -> Forall name_char (map f w).
Proof.
  intros H F. apply Forall_map. eapply Forall_impl; [|exact F]. cbn. intros c A.
  apply alnum_name_char. now rewrite H.
Qed.
Lemma name_chars_capital w : Forall (fun c => is_alnum c = true) w -> Forall name_char (capital w).
Proof.
  intros F. destruct w as [|c w]; [constructor|]. inversion F; subst. cbn [capital]. constructor.
  - apply alnum_name_char. now rewrite alnum_upper.
  - apply name_chars_map; [apply alnum_lower | assumption].
Qed.
Lemma name_chars_join ws : Forall (Forall name_char) ws -> Forall name_char (join (t "_") ws).
Proof.
  induction 1 as [|w ws F G IH]; [constructor|]. destruct ws as [|v ws]; [assumption|].
  change (join (t "_") (w :: v :: ws)) with (w ++ t "_" ++ join (t "_") (v :: ws)).
  apply Forall_app. split; [assumption|]. apply Forall_app. split; [apply underscore_char | assumption].
Qed.
Lemma name_chars_styled s ws : Forall (Forall (fun c => is_alnum c = true)) ws ->
  Forall name_char (styled s ws).
Proof.
  intros F. destruct s; cbn [styled].
  - apply name_chars_join. apply Forall_map. eapply Forall_impl; [|exact F]. intros w.
    apply name_chars_map, alnum_lower.
  - apply name_chars_join. apply Forall_map. eapply Forall_impl; [|exact F]. intros w.
    apply name_chars_map, alnum_upper.
  - destruct F as [|w ws F G]; [constructor|]. apply Forall_app. split.
    + now apply name_chars_map; [apply alnum_lower|].
    + apply Forall_concat, Forall_map. eapply Forall_impl; [|exact G]. apply name_chars_capital.
  - apply Forall_concat, Forall_map. eapply Forall_impl; [|exact F]. apply name_chars_capital.
Qed.
Definition first_upper (s : style) : bool := match s with Shouty | UpperCamel => true | _ => false end.
Definition first_as (s : style) (c : ascii) : ascii := if first_upper s then to_upper c else to_lower c.
Lemma join_cons w ws : join (t "_") (w :: ws) = w ++ match ws with [] => [] | _ => t "_" ++ join (t "_") ws end.
Proof. destruct ws; [now rewrite app_nil_r | reflexivity]. Qed.
Lemma styled_first s c r ws : exists x, styled s ((c :: r) :: ws) = first_as s c :: x.
Proof.
  destruct s; cbn [styled map]; rewrite ?join_cons; cbn [map capital concat app];
    eexists; reflexivity.
Qed.
Lemma first_as_letter s c : letter c ->
  letter (first_as s c) /\ is_upper (first_as s c) = first_upper s.
Proof.
  intros L. unfold first_as. destruct (first_upper s).
  - apply letter_upper in L. split; [now right | assumption].
  - apply letter_lower in L. split; [now left | now apply lower_not_upper].
Qed.
Lemma base_first l w n : letter_led n ->
  plain (base l w n) /\ exists c r, base l w n = c :: r /\ letter c /\
    is_upper c = first_upper (style_of l w).
Proof.
  intros L. destruct (first_word n L) as (c & r & ws & E & C & R & W).
  unfold base. rewrite E.
  assert (A : Forall (Forall (fun c => is_alnum c = true)) ((c :: r) :: ws)).
  { constructor; [|assumption]. constructor; [now apply letter_alnum | assumption]. }
  pose proof (name_chars_styled (style_of l w) _ A) as F.
  destruct (styled_first (style_of l w) c r ws) as [x X].
  destruct (first_as_letter (style_of l w) c C) as [P Q].
  split.
  - split; [exact F|]. exists (first_as (style_of l w) c), x. split; [assumption | now apply letter_not_digit].
  - exists (first_as (style_of l w) c), x. auto.
Qed.
Lemma plain_app a b : plain a -> Forall name_char b -> plain (a ++ b).
Proof.
  intros [F (c & r & -> & D)] G. split; [now apply Forall_app|]. exists c, (r ++ b). auto.
Qed.
Lemma suffixed_first l err w n : letter_led n ->
  plain (suffixed l err w (base l w n)) /\ exists c r, suffixed l err w (base l w n) = c :: r /\ letter c /\
    is_upper c = first_upper (style_of l w).
Proof.
  intros L. destruct (base_first l w n L) as [P (c & r & E & C & U)].
  assert (K : first_upper (style_of l w) = true ->
    plain (convert_error_suffix (base l w n)) /\ exists c r, convert_error_suffix (base l w n) = c :: r /\
      letter c /\ is_upper c = first_upper (style_of l w)).
  { intros T. destruct (convert_as_exception (base l w n)) as [(s & X & ->) | [_ ->]].
    2: { split; [assumption | eauto]. }
    destruct s as [|d s].
    - split.
      + split; [|exists "E"%char, (t "xception"); split; [reflexivity | discriminate]].
        now apply all_alnum.
      + exists "E"%char, (t "xception"). rewrite T. repeat split. now right.
    - rewrite E in X. cbn in X. injection X as <- Xr.
      split.
      + rewrite E in P. destruct P as [F (c' & r' & Q & D)]. injection Q as <- <-.
        inversion F as [|? ? F1 F2]; subst. apply Forall_app in F2 as [F2 _].
        split; [|exists c, (s ++ t "Exception"); auto].
        cbn [app]. constructor; [assumption|]. apply Forall_app. split; [assumption|].
        now apply all_alnum.
      + exists c, (s ++ t "Exception"). auto. }
  destruct l, w; cbn [suffixed] in *; try (split; [assumption | eauto]; fail);
    try (destruct err); try (split; [assumption | eauto]; fail); apply K; reflexivity.
Qed.

Definition starts_as (up : bool) (x : text) : bool :=
  match x with c :: _ => Bool.eqb (is_upper c) up && is_alnum c | [] => false end.
Lemma kotlin_small : forall x, In x kotlin_words -> starts_as false x = true.
Proof. apply all_In. vm_compute. reflexivity. Qed.
Lemma swift_covered : forall x, In x swift_words -> In x swift_keywords.
Proof.
  intros x I. apply listed_In. revert x I. apply all_In. vm_compute. reflexivity.
Qed.
Lemma swift_capitals : forall x, In x swift_words -> starts_as true x = true -> x = t "Any" \/ x = t "Self".
Proof.
  intros x I S.
  assert (H : (negb (starts_as true x) || listed x [t "Any"; t "Self"])%bool = true).
  { revert x I S. intros x I _. revert x I. apply all_In. vm_compute. reflexivity. }
  rewrite S in H. cbn [negb orb] in H. apply listed_In in H as [H | [H | []]]; auto.
Qed.
Lemma python_covered : forall x, In x python_words -> In x python_keywords.
Proof. intros x I. apply listed_In. revert x I. apply all_In. vm_compute. reflexivity. Qed.
Lemma python_underscored : forall x, ~ In (t "_" ++ x) python_words.
Proof.
  intros x I.
  assert (H : match t "_" ++ x with c :: _ => is_alnum c | [] => false end = true).
  { revert I. generalize (t "_" ++ x). apply all_In. vm_compute. reflexivity. }
  discriminate H.
Qed.
Lemma ruby_covered : forall x, In x ruby_words ->
  In x ruby_reserved \/ x = t "in" \/ x = t "__ENCODING__".
Proof.
  intros x I. assert (H : listed x (ruby_reserved ++ [t "in"; t "__ENCODING__"]) = true).
  { revert x I. apply all_In. vm_compute. reflexivity. }
  apply listed_In, in_app_or in H as [H | [H | [H | []]]]; auto.
Qed.
Lemma ruby_underscored : forall x, In x ruby_reserved -> ~ In (t "_" ++ x) ruby_words.
Proof.
  intros x I. apply not_listed. apply negb_true_iff. revert x I.
  apply (all_In (fun x => negb (listed (t "_" ++ x) ruby_words))). vm_compute. reflexivity.
Qed.
Lemma ruby_capitals : forall x, In x ruby_words -> starts_as true x = true -> x = t "BEGIN" \/ x = t "END".
Proof.
  intros x I S.
  assert (H : (negb (starts_as true x) || listed x [t "BEGIN"; t "END"])%bool = true).
  { revert x I S. intros x I _. revert x I. apply all_In. vm_compute. reflexivity. }
  rewrite S in H. cbn [negb orb] in H. apply listed_In in H as [H | [H | []]]; auto.
Qed.
Lemma starts_as_intro up c r : letter c -> is_upper c = up -> starts_as up (c :: r) = true.
Proof.
  intros L <-. cbn. rewrite (letter_alnum _ L), andb_true_r. apply eqb_reflx.
Qed.
Lemma plain_underscore x : Forall name_char x -> plain (t "_" ++ x).
Proof.
  intros F. split.
  - apply Forall_app. split; [apply underscore_char | assumption].
  - exists "_"%char, x. split; [reflexivity | discriminate].
Qed.

Lemma upper_camel_camel n : camel_case n -> to_upper_camel_case n = n.
Proof.
  intros [ws C]. pose proof (words_camel _ _ C) as W. destruct C as (_ & F & _ & ->).
  unfold to_upper_camel_case. rewrite W. f_equal.
  clear W. induction F as [|w ws (c & r & -> & U & R) _ IH]; [reflexivity|].
  cbn [map]. rewrite IH. f_equal. cbn [capitalize]. rewrite (to_upper_of_upper _ U). f_equal.
  unfold lowercase. clear -R. induction R as [|d r D _ IH]; [reflexivity|].
  cbn. now rewrite (to_lower_small _ D), IH.
Qed.
Lemma not_camel_BEGIN : ~ camel_case (t "BEGIN") /\ ~ camel_case (t "END").
Proof.
  split; intros [ws C]; pose proof (words_camel _ _ C) as W; vm_compute in W; subst ws;
    destruct C as (_ & F & _ & _); inversion F as [|? ? (c & r & E & _ & R) _]; subst;
    injection E as <- <-; inversion R as [|? ? [S | S] _]; subst; discriminate S.
Qed.

Lemma valid l err w n : letter_led n -> ~ awkward l w n -> accepted l w (rendered l err w n).
Proof.
  intros L K. rewrite rendered_base.
  destruct (suffixed_first l err w n L) as [P (c & r & E & C & U)].
  assert (LET : l = Swift \/ l = Ruby -> letters (suffixed l err w (base l w n)) = letters n).
  { intros [-> | ->]; destruct w; apply letters_base. }
  assert (CAM : l = Ruby -> w = AType \/ w = AnErrorVariant -> camel_case n ->
    suffixed l err w (base l w n) = n).
  { intros -> [-> | ->] Q; cbn; now apply upper_camel_camel. }
  set (x := suffixed l err w (base l w n)) in *. clearbody x.
  pose proof (starts_as_intro _ c r C U) as S. rewrite <- E in S.
  assert (KT : first_upper (style_of l w) = true -> ~ In x kotlin_words).
  { intros T I. apply kotlin_small in I. rewrite T in S. rewrite E in I, S. cbn in I, S.
    destruct (is_upper c); discriminate. }
  assert (Q : plain x -> exists y, in_quotes (quoted x) y /\ plain y) by (intros _; now exists x).
  destruct l; cbn [protect accepted].
  - destruct w; cbn [protect]; try (left; now apply Q); right; (split; [exact P | now apply KT]).
  - left. now apply Q.
  - assert (G : accepted Swift w (quote_general_keyword x)).
    { cbn [accepted]. unfold quote_general_keyword. destruct (listed x swift_keywords) eqn:M.
      - left. now apply Q.
      - right. split; [exact P|]. apply not_listed in M. intros I. apply M. now apply swift_covered. }
    assert (T : (w = AType \/ w = AnErrorVariant) ->
      (exists y, in_quotes x y /\ plain y) \/ (plain x /\ ~ In x swift_words)).
    { intros W. right. split; [exact P|]. intros I. apply K.
      assert (S' : starts_as true x = true) by (now destruct W as [-> | ->]).
      specialize (LET (or_introl eq_refl)).
      destruct (swift_capitals _ I S') as [-> | ->]; destruct W as [-> | ->]; cbn [awkward];
        rewrite <- LET; vm_compute; auto. }
    destruct w; cbn [protect]; try exact G; apply T; auto.
  - unfold fixup_keyword. destruct (listed x python_keywords) eqn:M.
    + split; [|apply python_underscored]. apply plain_underscore. apply P.
    + split; [exact P|]. apply not_listed in M. intros I. apply M. now apply python_covered.
  - specialize (LET (or_intror eq_refl)).
    assert (T : (w = AType \/ w = AVariant \/ w = AnErrorVariant) ->
      plain x /\ (exists c r, x = c :: r /\ is_upper c = true) /\ ~ In x ruby_words).
    { intros W. assert (S' : starts_as true x = true) by (now destruct W as [-> | [-> | ->]]).
      split; [exact P|]. split.
      { exists c, r. split; [exact E|]. rewrite U. now destruct W as [-> | [-> | ->]]. }
      intros I. apply K.
      assert (H : letters n = t "begin" \/ letters n = t "end").
      { rewrite <- LET. destruct (ruby_capitals _ I S') as [-> | ->]; vm_compute; auto. }
      assert (N : w = AType \/ w = AnErrorVariant -> ~ camel_case n).
      { intros W' Q'. specialize (CAM eq_refl W' Q'). destruct not_camel_BEGIN as [B1 B2].
        destruct (ruby_capitals _ I S') as [X | X]; rewrite X in CAM; subst n; auto. }
      destruct W as [-> | [-> | ->]]; cbn [awkward]; auto. }
    destruct w; cbn [protect]; try (refine (T _); auto; fail).
    + exact P.
    + destruct (listed x ruby_reserved) eqn:M.
      * split; [apply plain_underscore, P|]. split; [now exists "_"%char, x|].
        apply listed_In in M. now apply ruby_underscored.
      * cbn [app]. split; [exact P|]. split; [exists c, r; split; [exact E | exact U]|].
        apply not_listed in M. intros I. destruct (ruby_covered _ I) as [I' | [-> | ->]].
        -- now apply M.
        -- apply K. cbn [awkward]. rewrite <- LET. reflexivity.
        -- discriminate S.
Qed.
