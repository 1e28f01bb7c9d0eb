(** Different names stay different. *)
From Verif Require Import Idn_Model Idn_Spec Idn_Words Idn_Proofs.

(** * Words from a style *)
Lemma no_upper_head : forall a b u v x y,
  no_upper a -> no_upper b -> is_upper u = true -> is_upper v = true ->
  a ++ u :: x = b ++ v :: y -> a = b /\ u :: x = v :: y.
Proof.
  induction a as [|c a IH]; intros b u v x y A B U V E.
  - destruct b as [|d b]; [auto|]. cbn in E. injection E as -> _.
    inversion B; congruence.
  - destruct b as [|d b]; cbn in E.
    + injection E as -> _. inversion A; congruence.
    + injection E as -> E. inversion A; inversion B; subst.
      destruct (IH _ _ _ _ _ H2 H6 U V E) as [-> ?]. auto.
Qed.
Definition cap_word (w : text) : Prop := exists c r, w = c :: r /\ is_upper c = true /\ no_upper r.
Lemma concat_caps_inj : forall ws vs, Forall cap_word ws -> Forall cap_word vs ->
  concat ws = concat vs -> ws = vs.
Proof.
  induction ws as [|w ws IH]; intros vs F G E.
  - destruct G as [|v vs (c & r & -> & _) _]; [reflexivity | discriminate].
  - inversion F as [|? ? (c & r & -> & C & R) F']; subst.
    destruct G as [|v vs (d & q & -> & D & Q) G]; [discriminate|].
    cbn in E. injection E as <- E.
    destruct F' as [|w' ws' (c' & r' & -> & C' & R') F''], G as [|v' vs' (d' & q' & -> & D' & Q') G'];
      cbn [concat] in E; rewrite ?app_nil_r in E.
    + now subst.
    + subst r. exfalso. apply Forall_app in R as [_ R]. cbn in R. inversion R; congruence.
    + subst q. exfalso. apply Forall_app in Q as [_ Q]. cbn in Q. inversion Q; congruence.
    + cbn [app] in E. destruct (no_upper_head _ _ _ _ _ _ R Q C' D' E) as [-> E'].
      f_equal. apply IH.
      * constructor; [exists c', r'; auto | assumption].
      * constructor; [exists d', q'; auto | assumption].
      * exact E'.
Qed.
Lemma lower_no_upper w : Forall (fun c => is_alnum c = true) w -> no_upper (map to_lower w).
Proof.
  intros F. apply Forall_map. eapply Forall_impl; [|exact F]. cbn. intros c A.
  now apply small_not_upper, alnum_lower_small.
Qed.
Definition good_word (w : text) : Prop := starts_with_letter w /\ Forall (fun c => is_alnum c = true) w.
Lemma capital_cap w : good_word w -> cap_word (capital w).
Proof.
  intros [(c & r & -> & L) F]. inversion F; subst. cbn. exists (to_upper c), (map to_lower r).
  repeat split; [now apply letter_upper | now apply lower_no_upper].
Qed.
Lemma lower_capital w : map to_lower (capital w) = map to_lower w.
Proof.
  destruct w as [|c w]; [reflexivity|]. cbn. rewrite to_lower_upper. f_equal.
  rewrite map_map. apply map_ext. apply to_lower_lower.
Qed.
Lemma upper_camel_lowers ws vs : Forall good_word ws -> Forall good_word vs ->
  styled UpperCamel ws = styled UpperCamel vs -> map (map to_lower) ws = map (map to_lower) vs.
Proof.
  intros F G E. cbn [styled] in E. apply concat_caps_inj in E.
  - apply (f_equal (map (map to_lower))) in E. rewrite !map_map in E.
    rewrite (map_ext _ (map to_lower) lower_capital), (map_ext _ (map to_lower) lower_capital) in E.
    exact E.
  - apply Forall_map. eapply Forall_impl; [|exact F]. apply capital_cap.
  - apply Forall_map. eapply Forall_impl; [|exact G]. apply capital_cap.
Qed.
Definition cap_head (x : text) : text := match x with [] => [] | c :: r => to_upper c :: r end.
Lemma lower_upper_camel ws : Forall (fun w => w <> []) ws ->
  styled UpperCamel ws = cap_head (styled LowerCamel ws).
Proof.
  intros F. destruct F as [|w ws N _]; [reflexivity|]. destruct w as [|c w]; [contradiction|].
  cbn. now rewrite to_upper_lower.
Qed.
Lemma good_nonempty w : good_word w -> w <> [].
Proof. now intros [(c & r & -> & _) _]. Qed.
Lemma lowers_small ws : Forall (fun w => w <> [] /\ Forall (fun c => is_alnum c = true) w) ws ->
  Forall (fun w => w <> [] /\ Forall small w) (map (map to_lower) ws).
Proof.
  intros F. apply Forall_map. eapply Forall_impl; [|exact F]. cbn. intros w [N A]. split.
  - now destruct w.
  - apply Forall_map. eapply Forall_impl; [|exact A]. cbn. apply alnum_lower_small.
Qed.
Lemma uppers_big ws : Forall (fun w => w <> [] /\ Forall (fun c => is_alnum c = true) w) ws ->
  Forall (fun w => w <> [] /\ Forall (fun c => is_alnum c = true) w /\ no_lower w) (map (map to_upper) ws).
Proof.
  intros F. apply Forall_map. eapply Forall_impl; [|exact F]. cbn. intros w [N A]. repeat split.
  - now destruct w.
  - apply Forall_map. eapply Forall_impl; [|exact A]. cbn. intros c. now rewrite alnum_upper.
  - apply Forall_map. eapply Forall_impl; [|exact A]. cbn. intros c C.
    destruct (alnum_upper_big c C) as [U | D]; [now apply upper_not_lower | now apply digit_not_lower].
Qed.
Lemma snake_words ws : Forall (fun w => w <> [] /\ Forall (fun c => is_alnum c = true) w) ws ->
  words (styled Snake ws) = map (map to_lower) ws.
Proof. intros F. cbn [styled]. apply words_join_no_upper. now apply lowers_small. Qed.
Lemma shouty_words ws : Forall (fun w => w <> [] /\ Forall (fun c => is_alnum c = true) w) ws ->
  words (styled Shouty ws) = map (map to_upper) ws.
Proof. intros F. cbn [styled]. apply words_join_no_lower. now apply uppers_big. Qed.
Lemma good_alnum ws : Forall good_word ws ->
  Forall (fun w => w <> [] /\ Forall (fun c => is_alnum c = true) w) ws.
Proof.
  intros F. eapply Forall_impl; [|exact F]. cbn. intros w G. split; [now apply good_nonempty | apply G].
Qed.
Lemma lower_uppers ws : map (map to_lower) (map (map to_upper) ws) = map (map to_lower) ws.
Proof.
  rewrite map_map. apply map_ext. intros w. rewrite map_map. apply map_ext. apply to_lower_upper.
Qed.
Lemma styled_lowers s ws vs : Forall good_word ws -> Forall good_word vs ->
  styled s ws = styled s vs -> map (map to_lower) ws = map (map to_lower) vs.
Proof.
  intros F G E. destruct s.
  - rewrite <- !snake_words by now apply good_alnum. now f_equal.
  - rewrite <- (lower_uppers ws), <- (lower_uppers vs), <- !shouty_words by now apply good_alnum.
    now rewrite E.
  - apply upper_camel_lowers; [assumption | assumption|].
    rewrite !lower_upper_camel; [now rewrite E | |]; (eapply Forall_impl; [|eassumption]; apply good_nonempty).
  - now apply upper_camel_lowers.
Qed.

(** * The words of idiomatic names *)
Lemma small_good w : w <> [] /\ Forall small w -> starts_with_letter w -> good_word w.
Proof.
  intros [_ S] L. split; [assumption|]. eapply Forall_impl; [|exact S]. apply small_alnum.
Qed.
Lemma camel_good w : camel_word w -> good_word w.
Proof.
  intros C. split; [|now apply camel_word_alnum]. destruct C as (c & r & -> & U & _).
  exists c, r. split; [reflexivity | now right].
Qed.
Lemma idiomatic_words w n : idiomatic w n ->
  exists ws, words_of w ws n /\ Forall good_word ws /\ ws <> [].
Proof.
  assert (S : plain_snake_case n -> exists ws, snake_of ws n /\ Forall good_word ws /\ ws <> []).
  { intros (ws & S & L). exists ws. split; [assumption|]. destruct S as (N & F & _). split; [|assumption].
    rewrite Forall_forall in *. intros v I. apply small_good; auto. }
  assert (C : camel_case n -> exists ws, camel_of ws n /\ Forall good_word ws /\ ws <> []).
  { intros (ws & C). exists ws. split; [assumption|]. destruct C as (N & F & _). split; [|assumption].
    eapply Forall_impl; [|exact F]. apply camel_good. }
  destruct w; cbn; auto.
Qed.
Lemma lower_small_id w : Forall small w -> map to_lower w = w.
Proof. induction 1 as [|c w S _ IH]; [reflexivity|]. cbn. now rewrite (to_lower_small _ S), IH. Qed.
Lemma capital_camel w : camel_word w -> capital (map to_lower w) = w.
Proof.
  intros (c & r & -> & U & R). cbn. rewrite to_upper_lower, (to_upper_of_upper _ U). f_equal.
  now rewrite !lower_small_id by (now rewrite ?lower_small_id).
Qed.
Lemma lowers_inj w n m ws vs : words_of w ws n -> words_of w vs m ->
  map (map to_lower) ws = map (map to_lower) vs -> ws = vs.
Proof.
  intros W V E.
  assert (S : snake_of ws n -> snake_of vs m -> ws = vs).
  { intros (_ & F & _) (_ & G & _).
    assert (forall us, Forall (fun w => w <> [] /\ Forall small w) us -> map (map to_lower) us = us) as I.
    { induction 1 as [|u us [_ H] _ IH]; [reflexivity|]. cbn. now rewrite (lower_small_id _ H), IH. }
    now rewrite (I _ F), (I _ G) in E. }
  assert (C : camel_of ws n -> camel_of vs m -> ws = vs).
  { intros (_ & F & _) (_ & G & _).
    assert (forall us, Forall camel_word us -> map capital (map (map to_lower) us) = us) as I.
    { induction 1 as [|u us H _ IH]; [reflexivity|]. cbn [map]. now rewrite (capital_camel _ H), IH. }
    rewrite <- (I _ F), <- (I _ G). now rewrite E. }
  destruct w; cbn in W, V; auto.
Qed.
Lemma words_determine w ws n m : words_of w ws n -> words_of w ws m -> n = m.
Proof.
  destruct w; cbn; unfold snake_of, camel_of.
  1-2: intros (_ & _ & ->) (_ & _ & ->); reflexivity.
  all: intros (_ & _ & _ & ->) (_ & _ & _ & ->); reflexivity.
Qed.
Lemma base_inj l w n m : idiomatic w n -> idiomatic w m -> base l w n = base l w m -> n = m.
Proof.
  intros N M E.
  destruct (idiomatic_words _ _ N) as (ws & W & GW & _).
  destruct (idiomatic_words _ _ M) as (vs & V & GV & _).
  unfold base in E. rewrite (words_idiomatic _ _ _ W), (words_idiomatic _ _ _ V) in E.
  apply styled_lowers in E; [|assumption | assumption].
  apply (lowers_inj _ _ _ _ _ W V) in E. subst vs. eapply words_determine; eassumption.
Qed.

(** * Protection keeps them apart *)
Lemma join_letter_led : forall w ws, starts_with_letter w -> letter_led (join (t "_") (w :: ws)).
Proof.
  intros w ws (c & r & -> & L). rewrite join_cons. exists [], c. cbn. eexists. repeat split; auto.
Qed.
Lemma idiomatic_letter_led w n : idiomatic w n -> letter_led n.
Proof.
  assert (S : plain_snake_case n -> letter_led n).
  { intros (ws & (N & F & ->) & L). destruct ws as [|v ws]; [contradiction|]. inversion L; subst.
    now apply join_letter_led. }
  assert (C : camel_case n -> letter_led n).
  { intros (ws & N & F & _ & ->). destruct ws as [|v ws]; [contradiction|].
    inversion F as [|? ? (c & r & -> & U & _) _]; subst.
    exists [], c. cbn. eexists. repeat split; auto. now right. }
  destruct w; cbn; auto.
Qed.
Lemma quoted_inj x y : quoted x = quoted y -> x = y.
Proof.
  unfold quoted. intros E. apply app_inv_head in E. now apply app_inv_tail in E.
Qed.
Lemma name_char_not_quote c : name_char c -> c <> "`"%char.
Proof. intros [[H | H] | [H | H]] ->; discriminate H. Qed.
Lemma plain_not_quoted x y : plain x -> x <> quoted y.
Proof.
  intros [F _] ->. exact (name_char_not_quote _ (Forall_inv F) eq_refl).
Qed.
Lemma protect_inj l w x y : plain x -> plain y ->
  (exists c r, x = c :: r /\ letter c) -> (exists c r, y = c :: r /\ letter c) ->
  protect l w x = protect l w y -> x = y.
Proof.
  intros P Q X Y.
  assert (SW : quote_general_keyword x = quote_general_keyword y -> x = y).
  { unfold quote_general_keyword. destruct (listed x _), (listed y _); intros E.
    - now apply quoted_inj.
    - symmetry in E. now apply plain_not_quoted in E.
    - now apply plain_not_quoted in E.
    - exact E. }
  assert (US : forall z, (exists c r, z = c :: r /\ letter c) -> forall v, z <> t "_" ++ v).
  { intros z (c & r & -> & L) v E. injection E as -> _. destruct L as [L | L]; discriminate L. }
  assert (PY : fixup_keyword x = fixup_keyword y -> x = y).
  { unfold fixup_keyword. destruct (listed x _), (listed y _); intros E.
    - now injection E.
    - symmetry in E. now apply (US y Y) in E.
    - now apply (US x X) in E.
    - exact E. }
  assert (RB : protect Ruby AVariable x = protect Ruby AVariable y -> x = y).
  { cbn [protect]. destruct (listed x _), (listed y _); intros E.
    - now injection E.
    - symmetry in E. now apply (US y Y) in E.
    - now apply (US x X) in E.
    - exact E. }
  destruct l, w; cbn [protect] in *; auto; apply quoted_inj.
Qed.
Lemma convert_eq x y : convert_error_suffix x = convert_error_suffix y ->
  x = y \/ exists s, (x = s ++ t "Error" /\ y = s ++ t "Exception") \/
                     (y = s ++ t "Error" /\ x = s ++ t "Exception").
Proof.
  intros E. destruct (convert_as_exception x) as [(s & X & X') | [X X']],
    (convert_as_exception y) as [(s' & Y & Y') | [Y Y']]; rewrite X', Y' in E.
  - left. apply app_inv_tail in E. now subst.
  - right. exists s. auto.
  - right. exists s'. auto.
  - now left.
Qed.
Lemma convert_eq_plain x y : convert_error_suffix x = y ->
  x = y \/ exists s, x = s ++ t "Error" /\ y = s ++ t "Exception".
Proof.
  intros <-. destruct (convert_as_exception x) as [(s & X & ->) | [X ->]]; eauto.
Qed.

Lemma distinct l err err' w n m : idiomatic w n -> idiomatic w m ->
  rendered l err w n = rendered l err' w m ->
  n = m \/ (in_kotlin l /\ (w = AType \/ w = AnErrorVariant) /\ (meet n m \/ meet m n)).
Proof.
  intros N M E. rewrite !rendered_base in E.
  pose proof (idiomatic_letter_led _ _ N) as LN. pose proof (idiomatic_letter_led _ _ M) as LM.
  destruct (suffixed_first l err w n LN) as [P (c & r & X & C & _)].
  destruct (suffixed_first l err' w m LM) as [Q (d & q & Y & D & _)].
  apply protect_inj in E; eauto.
  assert (B : base l w n = base l w m -> n = m) by now apply base_inj.
  assert (K : in_kotlin l -> w = AType \/ w = AnErrorVariant -> base l w n = n /\ base l w m = m).
  { intros _ [-> | ->]; split; now apply upper_camel_camel. }
  assert (Z : (in_kotlin l /\ (w = AType \/ w = AnErrorVariant)) \/
    (forall err x, suffixed l err w x = x)).
  { unfold in_kotlin. destruct l; try (right; reflexivity); destruct w; auto; right; reflexivity. }
  destruct Z as [[Kl Kw] | Z]; [|rewrite !Z in E; auto].
  destruct (K Kl Kw) as [Bn Bm]. rewrite Bn, Bm in E.
  assert (S : forall e x, suffixed l e w x = x \/ suffixed l e w x = convert_error_suffix x).
  { intros e x. destruct Kl as [-> | ->], Kw as [-> | ->]; cbn; try destruct e; auto. }
  destruct (S err n) as [S1 | S1], (S err' m) as [S2 | S2]; rewrite S1, S2 in E.
  - now left.
  - symmetry in E. apply convert_eq_plain in E as [-> | H]; [now left|]. right. unfold meet. auto.
  - apply convert_eq_plain in E as [-> | H]; [now left|]. right. unfold meet. auto.
  - apply convert_eq in E as [-> | (s & [H | H])]; [now left | |]; right; unfold meet; eauto 7.
Qed.
