(** The parser on a text does what it does on its tokens. *)
From Verif Require Import Weed_Model Weed_Spec.

(** ** Characters *)
Definition solidb (x : ascii) : bool := orb (is_word x) (orb (is_char "." x) (is_char "+" x)).
Ltac bytes := let x := fresh in intros x; destruct x as [[|] [|] [|] [|] [|] [|] [|] [|]]; vm_compute.
Definition mem (x : ascii) (l : text) : bool := if in_dec ascii_dec x l then true else false.
Lemma mem_in : forall x l, mem x l = true <-> In x l.
Proof. intros x l. unfold mem. destruct (in_dec ascii_dec x l); intuition discriminate. Qed.
Lemma digit_b : forall x, is_digit x = mem x (tx "0123456789").
Proof. bytes; reflexivity. Qed.
Lemma letter_b : forall x, is_alpha x = mem x (tx "abcdefghijklmnopqrstuvwxyzABCDEFGHIJKLMNOPQRSTUVWXYZ").
Proof. bytes; reflexivity. Qed.
Lemma dash_b : forall x, orb (is_char "_" x) (is_char "-" x) = mem x (tx "_-").
Proof. bytes; reflexivity. Qed.
Lemma dot_b : forall x, orb (is_char "." x) (is_char "+" x) = mem x (tx ".+").
Proof. bytes; reflexivity. Qed.
Lemma white_b : forall x, is_white x = mem x (map ascii_of_nat [32; 9; 13; 10]).
Proof. bytes; reflexivity. Qed.
Lemma digit_is : forall x, is_digit x = true <-> digit x.
Proof. intros x. rewrite digit_b. apply mem_in. Qed.
Lemma letter_is : forall x, is_alpha x = true <-> letter x.
Proof. intros x. rewrite letter_b. apply mem_in. Qed.
Lemma white_is : forall x, is_white x = true <-> white x.
Proof. intros x. rewrite white_b. apply mem_in. Qed.
Lemma word_is : forall x, is_word x = true <-> word_char x.
Proof.
  intros x. unfold is_word, is_alphanum, word_char. rewrite dash_b, !orb_true_iff, mem_in, digit_is, letter_is. tauto.
Qed.
Lemma solid_is : forall x, solidb x = true <-> solid x.
Proof. intros x. unfold solidb, solid. rewrite dot_b, orb_true_iff, mem_in, word_is. tauto. Qed.
Lemma solid_not : forall x, solidb x = false <-> ~ solid x.
Proof. intros x. rewrite <- solid_is. destruct (solidb x); intuition discriminate. Qed.

(** ** Blanks *)
Definition stops (s : text) : Prop := sp1 s = None.
Lemma skip_length : forall q s, List.length (skip q s) <= List.length s.
Proof. induction s as [| x s IH]; cbn; [lia |]. destruct (q x); cbn; lia. Qed.
Lemma after_newline_length : forall s r, after_newline s = Some r -> List.length r < List.length s.
Proof. induction s as [| x s IH]; cbn [after_newline List.length]; intros r E; [discriminate |]. destruct (Ascii.eqb x newline); [injection E as ->; lia | specialize (IH r E); lia]. Qed.
Lemma tag_length : forall q s r, tag q s = Some r -> List.length r + List.length q = List.length s.
Proof.
  induction q as [| a q IH]; cbn; intros s r E; [injection E as ->; lia |]. destruct s as [| x s]; [discriminate |].
  destruct (Ascii.eqb a x); [| discriminate]. specialize (IH s r E). cbn. lia.
Qed.
Lemma after_close_length : forall s r, after_close s = Some r -> List.length r < List.length s.
Proof.
  induction s as [| x s IH]; intros r E; [discriminate |]. cbn [after_close] in E.
  destruct (tag (tx "*/") (x :: s)) as [r' |] eqn:T.
  - injection E as ->. pose proof (tag_length _ _ _ T) as L. cbn in *. lia.
  - specialize (IH r E). cbn. lia.
Qed.
Lemma sp1_length : forall s r, sp1 s = Some r -> List.length r < List.length s.
Proof.
  intros s r. unfold sp1, or_, line_comment, block_comment, while1, ch. destruct (tag (tx "//") s) as [a |] eqn:T.
  - pose proof (tag_length _ _ _ T) as L. cbn [tx list_ascii_of_string List.length] in L. destruct (tag (tx "/") a); [| destruct (after_newline a) as [b |] eqn:N].
    2: { intros E. injection E as ->. pose proof (after_newline_length _ _ N). lia. }
    all: destruct s as [| x s]; try discriminate; destruct (is_white x).
    all: try (intros E; injection E as <-; cbn; pose proof (skip_length is_white s); lia).
    all: destruct (tag (tx "/*") (x :: s)) as [c |] eqn:T2; [| discriminate]; intros E.
    all: pose proof (tag_length _ _ _ T2) as L2; pose proof (after_close_length _ _ E); cbn [tx list_ascii_of_string List.length] in *; lia.
  - destruct s as [| x s]; [discriminate |]. destruct (is_white x).
    + intros E; injection E as <-; cbn; pose proof (skip_length is_white s); lia.
    + destruct (tag (tx "/*") (x :: s)) as [c |] eqn:T2; [| discriminate]; intros E.
      pose proof (tag_length _ _ _ T2) as L2; pose proof (after_close_length _ _ E); cbn [tx list_ascii_of_string List.length] in *; lia.
Qed.
Lemma sp_loop_more : forall f f' s, List.length s <= f -> List.length s <= f' -> sp_loop f s = sp_loop f' s.
Proof.
  induction f as [| f IH]; intros f' s A B.
  - destruct s; [| cbn in A; lia]. destruct f'; reflexivity.
  - destruct f' as [| f']; [destruct s; [reflexivity | cbn in B; lia] |]. cbn. destruct (sp1 s) as [r |] eqn:E; [| reflexivity].
    pose proof (sp1_length _ _ E). apply IH; lia.
Qed.
Lemma sp_step : forall s r, sp1 s = Some r -> sp s = sp r.
Proof.
  intros s r E. pose proof (sp1_length _ _ E) as L. unfold sp. destruct s as [| x s]; [cbn in L; lia |]. cbn [List.length sp_loop]. rewrite E.
  apply sp_loop_more; cbn in L; lia.
Qed.
Lemma sp_stops : forall s, stops s -> sp s = s.
Proof. intros s E. unfold sp. destruct s as [| x s]; [reflexivity |]. cbn [List.length sp_loop]. unfold stops in E. rewrite E. reflexivity. Qed.
Lemma sp_length : forall s, List.length (sp s) <= List.length s.
Proof.
  intros s. unfold sp. generalize (List.length s) at 1. intros f. revert s. induction f as [| f IH]; intros s; cbn; [lia |].
  destruct (sp1 s) as [r |] eqn:E; [| lia]. pose proof (sp1_length _ _ E). specialize (IH r). lia.
Qed.
Lemma sp_white : forall x s, white x -> sp (x :: s) = sp s.
Proof.
  intros x s H. apply white_is in H.
  assert (E : sp1 (x :: s) = Some (skip is_white s)).
  { assert (S1 : Ascii.eqb "/"%char x = false) by (revert x H; bytes; (reflexivity || discriminate)).
    unfold sp1, or_, line_comment, while1, ch. cbn [tx list_ascii_of_string tag]. rewrite S1, H. reflexivity. }
  rewrite (sp_step _ _ E). clear E. destruct s as [| y s]; [reflexivity |]. cbn [skip]. destruct (is_white y) eqn:Y; [| reflexivity].
  symmetry. apply sp_step. assert (S1 : Ascii.eqb "/"%char y = false) by (revert y Y; bytes; (reflexivity || discriminate)).
  unfold sp1, or_, line_comment, while1, ch. cbn [tx list_ascii_of_string tag]. rewrite S1, Y. reflexivity.
Qed.
Lemma after_newline_found : forall t s, ~ In newline t -> after_newline (t ++ newline :: s) = Some s.
Proof.
  induction t as [| x t IH]; intros s N; cbn [app after_newline].
  - rewrite Ascii.eqb_refl. reflexivity.
  - destruct (Ascii.eqb_spec x newline) as [-> | D]; [exfalso; apply N; now left |]. apply IH. intros Q. apply N. now right.
Qed.
Lemma after_close_found : forall t s, ~ occurs (tx "*/") (t ++ tx "*") -> after_close (t ++ tx "*/" ++ s) = Some s.
Proof.
  induction t as [| x t IH]; intros s N; [reflexivity |]. cbn [app]. remember (t ++ tx "*/" ++ s) as q eqn:Q. cbn [after_close].
  destruct (tag (tx "*/") (x :: q)) as [r |] eqn:T.
  - exfalso. apply N. cbn [tx list_ascii_of_string tag] in T. destruct (Ascii.eqb_spec "*"%char x) as [<- | D]; [| discriminate].
    destruct t as [| y t]; [cbn in Q; subst q; discriminate T |]. cbn in Q. subst q. destruct (Ascii.eqb_spec "/"%char y) as [<- | D]; [| discriminate].
    exists [], (t ++ tx "*"). reflexivity.
  - subst q. apply IH. intros [a [b E]]. apply N. exists (x :: a), b. exact (f_equal (cons x) E).
Qed.
Lemma sp_blank : forall b, blank b -> forall s, sp (b ++ s) = sp s.
Proof.
  induction 1 as [| x b H B IH | t b N S B IH | t b N B IH]; intros s.
  - reflexivity.
  - cbn [app]. rewrite sp_white by exact H. apply IH.
  - rewrite <- (IH s). apply sp_step. rewrite <- !app_assoc. cbn [tx list_ascii_of_string app]. unfold sp1, or_.
    replace (line_comment ("/"%char :: "/"%char :: t ++ newline :: b ++ s)) with (Some (b ++ s)); [reflexivity |].
    unfold line_comment. cbn [tx list_ascii_of_string tag]. rewrite !Ascii.eqb_refl.
    rewrite after_newline_found by exact N.
    destruct t as [| y t]; [reflexivity |]. cbn [app]. destruct (Ascii.eqb_spec "/"%char y) as [<- | D]; [| reflexivity]. exfalso. exact (S t eq_refl).
  - rewrite <- (IH s). apply sp_step. rewrite <- !app_assoc. unfold sp1, or_, line_comment, block_comment, while1, ch. cbn [tx list_ascii_of_string app tag].
    rewrite (Ascii.eqb_refl "/"%char), (Ascii.eqb_refl "*"%char). cbn. exact (after_close_found t (b ++ s) N).
Qed.

(** ** Terminals on a word or number that ends at a boundary *)
Definition chunk (w : text) : Prop := forallb solidb w = true.
Definition bound (s : text) : Prop := match s with x :: _ => solidb x = false | [] => True end.
Definition local (f : text -> rest) : Prop :=
  forall w s, chunk w -> bound s -> match f w with Some r => chunk r /\ f (w ++ s) = Some (r ++ s) | None => f (w ++ s) = None end.
Lemma chunk_cons : forall x w, chunk (x :: w) <-> solidb x = true /\ chunk w.
Proof. intros x w. unfold chunk. cbn. apply andb_true_iff. Qed.
Definition within (q : ascii -> bool) : Prop := forall x, q x = true -> solidb x = true.
Lemma local_ch : forall q, within q -> local (ch q).
Proof.
  intros q Q w s C B. destruct w as [| x w]; cbn.
  - destruct s as [| y s]; [reflexivity |]. cbn in B |- *. destruct (q y) eqn:E; [| reflexivity]. rewrite (Q y E) in B. discriminate.
  - apply chunk_cons in C. destruct (q x); [split; [apply C | reflexivity] | reflexivity].
Qed.
Lemma local_skip : forall q, within q -> forall w s, chunk w -> bound s -> chunk (skip q w) /\ skip q (w ++ s) = skip q w ++ s.
Proof.
  intros q Q. induction w as [| x w IH]; intros s C B; cbn.
  - split; [reflexivity |]. destruct s as [| y s]; [reflexivity |]. cbn in B. cbn. destruct (q y) eqn:E; [| reflexivity]. rewrite (Q y E) in B. discriminate.
  - destruct (q x) eqn:E; [| split; [exact C | reflexivity]]. apply chunk_cons in C. apply IH; [apply C | exact B].
Qed.
Lemma local_while0 : forall q, within q -> local (while0 q).
Proof. intros q Q w s C B. unfold while0. destruct (local_skip q Q w s C B) as [A E]. rewrite E. auto. Qed.
Lemma local_then : forall f g, local f -> local g -> local (then_ f g).
Proof.
  intros f g F H w s C B. unfold then_. pose proof (F w s C B) as K. destruct (f w) as [r |].
  - destruct K as [C' ->]. apply (H r s C' B).
  - rewrite K. reflexivity.
Qed.
Lemma local_while1 : forall q, within q -> local (while1 q).
Proof. intros q Q. exact (local_then _ _ (local_ch q Q) (local_while0 q Q)). Qed.
Lemma local_or : forall f g, local f -> local g -> local (or_ f g).
Proof.
  intros f g F H w s C B. unfold or_. pose proof (F w s C B) as K. destruct (f w) as [r |].
  - destruct K as [C' ->]. auto.
  - rewrite K. apply (H w s C B).
Qed.
Lemma local_maybe : forall f, local f -> local (maybe f).
Proof.
  intros f F w s C B. unfold maybe. pose proof (F w s C B) as K. destruct (f w) as [r |].
  - destruct K as [C' ->]. auto.
  - rewrite K. auto.
Qed.
Lemma local_tag : forall q, chunk q -> local (tag q).
Proof.
  induction q as [| a q IH]; intros Q w s C B; [cbn; auto |]. apply chunk_cons in Q. destruct Q as [Qa Q]. destruct w as [| x w]; cbn.
  - destruct s as [| y s]; [reflexivity |]. cbn [bound] in B. cbn [tag]. destruct (Ascii.eqb_spec a y) as [<- | D]; [congruence | reflexivity].
  - apply chunk_cons in C. destruct (Ascii.eqb a x); [| reflexivity]. apply (IH Q w s (proj2 C) B).
Qed.
Lemma word_within : within is_word.
Proof. unfold within. bytes; (reflexivity || discriminate). Qed.
Lemma local_kw : forall q, chunk q -> local (kw q).
Proof.
  intros q Q w s C B. unfold kw. pose proof (local_tag q Q w s C B) as K. destruct (tag q w) as [r |].
  - destruct K as [C' ->]. pose proof (local_ch is_word word_within r s C' B) as K. destruct (ch is_word r) as [r2 |].
    + destruct K as [_ ->]. reflexivity.
    + rewrite K. auto.
  - rewrite K. reflexivity.
Qed.
Ltac inside := unfold within; bytes; (reflexivity || discriminate).
Lemma local_minus : local minus.
Proof. apply local_maybe, local_ch. inside. Qed.
Lemma local_dec : local dec.
Proof. apply local_then; [exact local_minus |]. apply local_then; [apply local_ch; inside | apply local_while0; inside]. Qed.
Lemma local_hex : local hex.
Proof.
  apply local_then; [exact local_minus |]. apply local_then; [apply local_ch; inside |]. apply local_then; [apply local_ch; inside | apply local_while0; inside].
Qed.
Lemma local_oct : local oct.
Proof. apply local_then; [exact local_minus |]. apply local_then; [apply local_ch; inside | apply local_while0; inside]. Qed.
Lemma local_exponent : local exponent.
Proof.
  apply local_then; [apply local_ch; inside |]. apply local_then; [apply local_maybe, local_ch; inside | apply local_while1; inside].
Qed.
Lemma digit_within : within is_digit.
Proof. inside. Qed.
Lemma dot_within : within (is_char ".").
Proof. inside. Qed.
Lemma local_float : local float.
Proof.
  apply local_then; [exact local_minus |].
  apply local_or; [apply local_then; [apply local_or; apply local_then |] | apply local_then].
  - apply local_while1, digit_within.
  - apply local_then; [apply local_ch, dot_within | apply local_while0, digit_within].
  - apply local_while0, digit_within.
  - apply local_then; [apply local_ch, dot_within | apply local_while1, digit_within].
  - apply local_maybe, local_exponent.
  - apply local_while1, digit_within.
  - exact local_exponent.
Qed.
Lemma local_ident_body : local ident_body.
Proof. apply local_then; [apply local_while1; inside | apply local_while0, word_within]. Qed.
Lemma local_ident_start : local ident_start.
Proof. apply local_maybe, local_ch. inside. Qed.

Lemma matched_app : forall w r s, List.length r <= List.length w -> matched (w ++ s) (r ++ s) = matched w r.
Proof.
  intros w r s L. unfold matched. rewrite !app_length.
  replace (List.length w + List.length s - (List.length r + List.length s)) with (List.length w - List.length r) by lia.
  rewrite firstn_app. replace (List.length w - List.length r - List.length w) with 0 by lia. cbn. apply app_nil_r.
Qed.
Definition shortens (f : text -> rest) : Prop := forall s r, f s = Some r -> List.length r <= List.length s.
Lemma sh_ch : forall q, shortens (ch q).
Proof. intros q [| x s] r; cbn; [discriminate |]. destruct (q x); [| discriminate]. intros E. injection E as ->. lia. Qed.
Lemma sh_while0 : forall q, shortens (while0 q).
Proof. intros q s r E. unfold while0 in E. injection E as <-. apply skip_length. Qed.
Lemma sh_then : forall f g, shortens f -> shortens g -> shortens (then_ f g).
Proof. intros f g F H s r. unfold then_. destruct (f s) as [a |] eqn:E; [| discriminate]. intros K. specialize (F _ _ E). specialize (H _ _ K). lia. Qed.
Lemma sh_while1 : forall q, shortens (while1 q).
Proof. intros q. exact (sh_then _ _ (sh_ch q) (sh_while0 q)). Qed.
Lemma sh_or : forall f g, shortens f -> shortens g -> shortens (or_ f g).
Proof. intros f g F H s r. unfold or_. destruct (f s) as [a |] eqn:E; [intros K; injection K as ->; exact (F _ _ E) | apply H]. Qed.
Lemma sh_maybe : forall f, shortens f -> shortens (maybe f).
Proof. intros f F s r. unfold maybe. destruct (f s) as [a |] eqn:E; intros K; injection K as ->; [exact (F _ _ E) | lia]. Qed.
Lemma sh_tag : forall q, shortens (tag q).
Proof. intros q s r E. pose proof (tag_length _ _ _ E). lia. Qed.
Lemma sh_kw : forall q, shortens (kw q).
Proof. intros q s r. unfold kw. destruct (tag q s) as [a |] eqn:E; [| discriminate]. destruct (ch is_word a); [discriminate |]. intros K. injection K as ->. exact (sh_tag _ _ _ E). Qed.
Create HintDb sh.
#[export] Hint Resolve sh_ch sh_while0 sh_then sh_while1 sh_or sh_maybe sh_tag sh_kw : sh.
Lemma sh_float : shortens float.
Proof. unfold float, minus, exponent. auto 12 with sh. Qed.
Lemma sh_dec : shortens dec.
Proof. unfold dec, minus. auto 12 with sh. Qed.
Lemma sh_hex : shortens hex.
Proof. unfold hex, minus. auto 12 with sh. Qed.
Lemma sh_oct : shortens oct.
Proof. unfold oct, minus. auto 12 with sh. Qed.
Lemma sh_ident_body : shortens ident_body.
Proof. unfold ident_body. auto 12 with sh. Qed.
Lemma sh_ident_start : shortens ident_start.
Proof. unfold ident_start. auto 12 with sh. Qed.

(** The value of a terminal on the word alone. *)
Definition lexer_ok (l : lexer) : Prop := match l with LKw q => chunk (tx q) /\ q <> "" | LPunct c => solidb c = false /\ is_white c = false /\ c <> "/"%char /\ c <> quote | _ => True end.
Definition of_chunk (l : lexer) : bool := match l with LPunct _ | LStr => false | _ => true end.
Lemma value_local : forall f, local f -> shortens f -> forall w s, chunk w -> bound s ->
  value f (w ++ s) = match value f w with Some (v, r) => Some (v, r ++ s) | None => None end.
Proof.
  intros f F H w s C B. unfold value. pose proof (F w s C B) as K. destruct (f w) as [r |] eqn:E.
  - destruct K as [_ ->]. rewrite matched_app by exact (H _ _ E). reflexivity.
  - rewrite K. reflexivity.
Qed.
Lemma lex_local : forall l w s, lexer_ok l -> of_chunk l = true -> chunk w -> bound s ->
  lex l (w ++ s) = match lex l w with Some (v, r) => Some (v, r ++ s) | None => None end.
Proof.
  intros l w s O K C B. destruct l; try discriminate K; cbn [lex lexer_ok] in *.
  - apply value_local; [apply local_kw, O | apply sh_kw | exact C | exact B].
  - pose proof (local_ident_start w s C B) as Q. destruct (ident_start w) as [r |].
    + destruct Q as [C' ->]. apply value_local; [exact local_ident_body | exact sh_ident_body | exact C' | exact B].
    + rewrite Q. reflexivity.
  - apply value_local; [exact local_dec | exact sh_dec | exact C | exact B].
  - apply value_local; [exact local_hex | exact sh_hex | exact C | exact B].
  - apply value_local; [exact local_oct | exact sh_oct | exact C | exact B].
  - apply value_local; [exact local_float | exact sh_float | exact C | exact B].
Qed.
Lemma lex_empty : forall l, lexer_ok l -> lex l [] = None.
Proof.
  intros l O. destruct l as [[| c q] | c | | | | | |]; try reflexivity. destruct O as [_ O]. exfalso. apply O. reflexivity.
Qed.
Lemma lex_bound : forall l s, lexer_ok l -> of_chunk l = true -> bound s -> lex l s = None.
Proof.
  intros l s O K B. pose proof (lex_local l [] s O K eq_refl B) as E. rewrite (lex_empty l O) in E. exact E.
Qed.
