(** What the lexers read in words and numbers. *)
From Verif Require Import Weed_Model Weed_Spec Weed_Tokens Weed_Refine.

Definition eqt (a b : text) : bool := if list_eq_dec ascii_dec a b then true else false.
Lemma eqt_refl : forall a, eqt a a = true.
Proof. intros a. unfold eqt. destruct (list_eq_dec ascii_dec a a); congruence. Qed.
Lemma eqt_neq : forall a b, a <> b -> eqt a b = false.
Proof. intros a b N. unfold eqt. destruct (list_eq_dec ascii_dec a b); congruence. Qed.
Definition wordt (w : text) : Prop := forallb is_word w = true.
Lemma matched_all : forall w, matched w [] = w.
Proof. intros w. unfold matched. cbn [List.length]. rewrite Nat.sub_0_r. apply firstn_all. Qed.
Lemma tag_word : forall q w, match tag q w with Some r => w = q ++ r | None => q <> w end.
Proof.
  induction q as [| a q IH]; intros w; cbn [tag]; [reflexivity |]. destruct w as [| x w]; [discriminate |].
  destruct (Ascii.eqb_spec a x) as [-> | N].
  - specialize (IH w). destruct (tag q w); [cbn; congruence | congruence].
  - congruence.
Qed.
Lemma kw_word : forall q w, wordt w -> kw q w = if eqt q w then Some [] else None.
Proof.
  intros q w H. unfold kw. pose proof (tag_word q w) as T. destruct (tag q w) as [[| x r] |].
  - rewrite app_nil_r in T. subst. rewrite eqt_refl. reflexivity.
  - cbn [ch]. unfold wordt in H. rewrite T, forallb_app in H. cbn [forallb] in H. apply andb_true_iff in H. destruct H as [_ H].
    apply andb_true_iff in H. destruct H as [H _]. rewrite H. rewrite eqt_neq; [reflexivity |].
    intros E. rewrite <- E in T. apply (f_equal (@List.length _)) in T. rewrite app_length in T. cbn in T. lia.
  - rewrite eqt_neq by exact T. reflexivity.
Qed.
Lemma tk : forall s w r, wordt w -> trun (k s) (Chunk w :: r) = if eqt (tx s) w then TSome w r else TNone.
Proof.
  intros s w r H. unfold k. cbn [trun tlex of_chunk lex]. unfold value. rewrite kw_word by exact H.
  destruct (eqt (tx s) w); [rewrite matched_all |]; reflexivity.
Qed.

(** ** Names *)
Definition nm (w : text) : text := if is_keyword w then "_"%char :: w else w.
Lemma name_word : forall w, name_ok w -> wordt w.
Proof.
  intros w (x & w' & -> & L & F). unfold wordt. cbn [forallb]. apply andb_true_iff. split.
  - apply word_is. left. exact L.
  - apply forallb_forall. intros y I. apply word_is. rewrite Forall_forall in F. apply F, I.
Qed.
Lemma nm_word : forall w, name_ok w -> wordt (nm w).
Proof. intros w H. apply name_word in H. unfold nm. destruct (is_keyword w); [| exact H]. exact H. Qed.
Lemma nm_free : forall w, is_keyword (nm w) = false.
Proof. intros w. unfold nm. destruct (is_keyword w) eqn:E; [reflexivity | exact E]. Qed.
Lemma free_eqt : forall s w, is_keyword w = false -> In s keywords -> eqt (tx s) w = false.
Proof.
  intros s w E I. destruct (eqt (tx s) w) eqn:Q; [| reflexivity]. rewrite <- E. symmetry. apply existsb_exists. exists s. split; [exact I |]. exact Q.
Qed.
Definition known (s : string) : bool := existsb (String.eqb s) keywords.
Lemma known_in : forall s, known s = true -> In s keywords.
Proof. intros s H. apply existsb_exists in H. destruct H as (x & I & E). apply String.eqb_eq in E. now subst. Qed.
Lemma tkN : forall s w r, known s = true -> name_ok w -> trun (k s) (name w :: r) = TNone.
Proof.
  intros s w r K H. change (name w) with (Chunk (nm w)). rewrite tk by (apply nm_word, H). rewrite free_eqt; [reflexivity | apply nm_free | apply known_in, K].
Qed.
Lemma skip_all : forall q w, forallb q w = true -> skip q w = [].
Proof. induction w as [| x w IH]; cbn [forallb skip]; [reflexivity |]. intros H. apply andb_true_iff in H. destruct H as [-> H]. auto. Qed.
Lemma skip_suffix : forall q q' w, forallb q w = true -> forallb q (skip q' w) = true.
Proof. induction w as [| x w IH]; cbn [forallb skip]; [reflexivity |]. intros H. destruct (q' x); [| exact H]. apply andb_true_iff in H. apply IH, H. Qed.
Lemma letter_alnum : forall x, is_alpha x = true -> is_alphanum x = true /\ is_char "_" x = false.
Proof. bytes; (discriminate || (split; reflexivity)). Qed.
Lemma ident_body_ok : forall w, name_ok w -> value ident_body w = Some (w, []).
Proof.
  intros w H. pose proof (name_word w H) as Ww. destruct H as (x & w' & -> & L & F). apply letter_is, letter_alnum in L. destruct L as [L _].
  unfold value, ident_body, then_, while1, while0, ch. rewrite L. unfold wordt in Ww. cbn [forallb] in Ww. apply andb_true_iff in Ww. destruct Ww as [_ Ww].
  rewrite skip_all by (apply skip_suffix, Ww). rewrite matched_all. reflexivity.
Qed.
Lemma tident_plain : forall w r, name_ok w -> trun ident (Chunk w :: r) = TSome w r.
Proof.
  intros w r H. unfold ident. cbn [trun tlex of_chunk lex]. pose proof (ident_body_ok w H) as E. destruct H as (x & w' & -> & L & F).
  apply letter_is, letter_alnum in L. destruct L as [_ L]. unfold ident_start, maybe, ch. rewrite L. rewrite E. reflexivity.
Qed.
Lemma tident : forall w r, name_ok w -> trun ident (name w :: r) = TSome w r.
Proof.
  intros w r H. unfold name. destruct (is_keyword w); [| apply tident_plain, H].
  unfold ident. cbn [trun tlex of_chunk lex]. unfold ident_start, maybe, ch. change (is_char "_" "_"%char) with true. cbv iota.
  rewrite (ident_body_ok w H). reflexivity.
Qed.

(** ** Numbers *)
Definition starts_number (x : ascii) : bool := orb (is_digit x) (is_char "." x).
Lemma start_facts : forall x, starts_number x = true ->
  is_char "-" x = false /\ Ascii.eqb "t" x = false /\ Ascii.eqb "f" x = false /\ Ascii.eqb "-" x = false /\ Ascii.eqb "I" x = false /\ Ascii.eqb "N" x = false.
Proof. bytes; (discriminate || (repeat split)). Qed.
Lemma minus_signed : forall s x t, signed s (x :: t) -> starts_number x = true -> minus s = Some (x :: t).
Proof.
  intros s x t [-> | ->] H; apply start_facts in H; destruct H as [H _]; unfold minus, maybe, ch.
  - rewrite H. reflexivity.
  - reflexivity.
Qed.
(** The words tried before numbers. *)
Lemma number_no_word : forall s x t, signed s (x :: t) -> starts_number x = true ->
  tag (tx "true") s = None /\ tag (tx "false") s = None /\ tag (tx "-Infinity") s = None /\ tag (tx "Infinity") s = None /\ tag (tx "NaN") s = None.
Proof.
  intros s x t H Q. apply start_facts in Q. destruct Q as (_ & Q1 & Q2 & Q3 & Q4 & Q5).
  destruct H as [-> | ->]; cbn [tx list_ascii_of_string tag]; rewrite ?Q1, ?Q2, ?Q3, ?Q4, ?Q5; repeat split; try reflexivity.
Qed.
Lemma tk_number : forall s x t q r, signed s (x :: t) -> starts_number x = true -> In q ["true"; "false"; "-Infinity"; "Infinity"; "NaN"] ->
  trun (k q) (Chunk s :: r) = TNone.
Proof.
  intros s x t q r H Q I. destruct (number_no_word s x t H Q) as (A & B & C & D & E). unfold k. cbn [trun tlex of_chunk lex]. unfold value, kw.
  cbn in I. repeat (destruct I as [<- | I]; [first [rewrite A | rewrite B | rewrite C | rewrite D | rewrite E]; reflexivity |]). contradiction.
Qed.
Definition fbody : text -> rest :=
  or_ (then_ (or_ (then_ (while1 is_digit) (then_ (ch (is_char ".")) (while0 is_digit)))
                  (then_ (while0 is_digit) (then_ (ch (is_char ".")) (while1 is_digit))))
             (maybe exponent))
      (then_ (while1 is_digit) exponent).
Definition head_not (q : ascii -> bool) (s : text) : Prop := match s with x :: _ => q x = false | [] => True end.
Lemma digits_true : forall a, Forall digit a -> forallb is_digit a = true.
Proof. intros a F. apply forallb_forall. intros y I. rewrite Forall_forall in F. apply digit_is, F, I. Qed.
Lemma skip_digits : forall a s, Forall digit a -> head_not is_digit s -> skip is_digit (a ++ s) = s.
Proof.
  induction 1 as [| x a H F IH]; intros N.
  - destruct s as [| y s]; [reflexivity |]. cbn [app skip]. cbn in N. rewrite N. reflexivity.
  - cbn [app skip]. apply digit_is in H. rewrite H. apply IH, N.
Qed.
Lemma while1_digits : forall a s, Forall digit a -> head_not is_digit s -> while1 is_digit (a ++ s) = match a with [] => None | _ => Some s end.
Proof.
  intros a s F N. unfold while1, ch. destruct F as [| x a H F]; cbn [app].
  - destruct s as [| y s]; [reflexivity |]. cbn in N. rewrite N. reflexivity.
  - apply digit_is in H. rewrite H, skip_digits by assumption. reflexivity.
Qed.
Lemma exp_reads : forall x, exp_text x -> exponent x = Some [] /\ head_not is_digit x /\ head_not (is_char ".") x.
Proof.
  intros x (e & sg & d & -> & He & Hs & N & F). destruct d as [| y d]; [congruence |]. inversion F as [| ? ? Hy Fd]; subst.
  assert (Y : is_digit y = true) by (apply digit_is, Hy). assert (YS : orb (is_char "+" y) (is_char "-" y) = false) by (revert y Y Hy F N; clear; bytes; (discriminate || reflexivity)).
  assert (E : orb (is_char "e" e) (is_char "E" e) = true /\ is_digit e = false /\ is_char "." e = false) by (cbn in He; destruct He as [<- | [<- | []]]; repeat split).
  destruct E as (E1 & E2 & E3). split; [| split; [exact E2 | exact E3]].
  assert (Z : while1 is_digit (y :: d) = Some []) by (unfold while1, ch; rewrite Y, skip_all by (apply digits_true, Fd); reflexivity).
  unfold exponent, then_. cbn [ch]. rewrite E1. destruct Hs as [-> | [-> | ->]]; cbn [app tx list_ascii_of_string]; unfold maybe; cbn [ch].
  - rewrite YS. exact Z.
  - change (orb (is_char "+" "+"%char) (is_char "-" "+"%char)) with true. cbv iota. exact Z.
  - change (orb (is_char "+" "-"%char) (is_char "-" "-"%char)) with true. cbv iota. exact Z.
Qed.
Lemma fbody_point : forall a b x, Forall digit a -> Forall digit b -> (a <> [] \/ b <> []) -> (x = [] \/ exp_text x) -> fbody (a ++ "."%char :: b ++ x) = Some [].
Proof.
  intros a b x Fa Fb N X. assert (Hx : head_not is_digit x /\ maybe exponent x = Some []).
  { destruct X as [-> | X]; [split; [exact I | reflexivity] |]. apply exp_reads in X. destruct X as (X & H & _). split; [exact H |]. unfold maybe. rewrite X. reflexivity. }
  destruct Hx as [Hx Ex]. unfold fbody, or_, then_, while0.
  rewrite (while1_digits a ("."%char :: b ++ x) Fa eq_refl), (skip_digits a ("."%char :: b ++ x) Fa eq_refl).
  cbn [ch]. change (is_char "." ".") with true. cbv iota.
  destruct a as [| y a].
  - rewrite (while1_digits b x Fb Hx). destruct b as [| z b]; [destruct N; congruence |]. rewrite Ex. reflexivity.
  - change (ch (is_char ".") ("."%char :: b ++ x)) with (Some (b ++ x)). cbv iota beta. rewrite (skip_digits b x Fb Hx), Ex. reflexivity.
Qed.
Lemma fbody_rest : forall a x, Forall digit a -> head_not is_digit x -> head_not (is_char ".") x ->
  fbody (a ++ x) = match a with [] => None | _ => exponent x end.
Proof.
  intros a x Fa Hd Hp. unfold fbody, or_, then_. rewrite while1_digits by assumption. unfold while0 at 2. rewrite skip_digits by assumption.
  assert (C : ch (is_char ".") x = None) by (destruct x as [| y x]; [reflexivity |]; cbn in *; rewrite Hp; reflexivity). rewrite !C. destruct a; [reflexivity |]. cbv iota beta. rewrite C. reflexivity.
Qed.
Lemma float_signed : forall s x t, signed s (x :: t) -> starts_number x = true -> float s = fbody (x :: t).
Proof. intros s x t H Q. unfold float, then_ at 1. rewrite (minus_signed s x t H Q). reflexivity. Qed.
Lemma tlex_value : forall l f s r, of_chunk l = true -> (forall s, lex l s = value f s) -> f s = Some [] -> trun (Lex l) (Chunk s :: r) = TSome s r.
Proof. intros l f s r K L E. cbn [trun tlex]. rewrite K, L. unfold value. rewrite E, matched_all. reflexivity. Qed.
Lemma tlex_none : forall l f s r, of_chunk l = true -> (forall s, lex l s = value f s) -> f s = None -> trun (Lex l) (Chunk s :: r) = TNone.
Proof. intros l f s r K L E. cbn [trun tlex]. rewrite K, L. unfold value. rewrite E. reflexivity. Qed.

Lemma float_reads : forall s, float_text s -> float s = Some [] /\ exists x t, signed s (x :: t) /\ starts_number x = true.
Proof.
  intros s (t & a & b & x & H & Fa & Fb & C).
  assert (Q : exists y t', t = y :: t' /\ starts_number y = true).
  { destruct C as [(-> & _) | (-> & N & _)]; destruct a as [| y a]; [| | congruence |]; cbn [app].
    1: exists "."%char; eexists; split; reflexivity.
    all: inversion Fa as [| ? ? D ?]; subst; exists y; eexists; (split; [reflexivity |]); unfold starts_number; apply digit_is in D; rewrite D; reflexivity. }
  destruct Q as (y & t' & -> & Q). split; [| exists y, t'; auto]. rewrite (float_signed s y t' H Q).
  destruct C as [(E & N & X) | (E & N & X)]; rewrite E.
  - apply fbody_point; assumption.
  - apply exp_reads in X. destruct X as (X & Hd & Hp). rewrite fbody_rest by assumption. destruct a; [congruence | exact X].
Qed.
Lemma digit_starts : forall x, digit x -> starts_number x = true.
Proof. intros x D. apply digit_is in D. unfold starts_number. rewrite D. reflexivity. Qed.
Lemma fbody_digits : forall x d, Forall digit (x :: d) -> fbody (x :: d) = None.
Proof. intros x d F. rewrite <- (app_nil_r (x :: d)). rewrite fbody_rest by (try exact F; exact I). reflexivity. Qed.
Lemma dec_reads : forall s, dec_text s -> dec s = Some [] /\ float s = None /\ exists x t, signed s (x :: t) /\ starts_number x = true.
Proof.
  intros s (t & x & d & H & -> & X & F).
  assert (D : digit x) by (unfold digit; cbn in *; tauto). pose proof (digit_starts x D) as Q.
  assert (X' : between "1" "9" x = true) by (cbn in X; repeat (destruct X as [<- | X]; [reflexivity |]); contradiction).
  split; [| split; [| exists x, d; auto]].
  - unfold dec, then_ at 1. rewrite (minus_signed s x d H Q). unfold then_, ch. rewrite X'. unfold while0. rewrite skip_all by (apply digits_true, F). reflexivity.
  - rewrite (float_signed s x d H Q). apply fbody_digits. constructor; assumption.
Qed.
Lemma zero_starts : starts_number "0" = true.
Proof. reflexivity. Qed.
Lemma hex_reads : forall s, hex_text s -> hex s = Some [] /\ float s = None /\ dec s = None /\ exists x t, signed s (x :: t) /\ starts_number x = true.
Proof.
  intros s (t & x & d & H & -> & X & F).
  assert (X' : orb (is_char "x" x) (is_char "X" x) = true /\ is_digit x = false /\ is_char "." x = false /\ orb (is_char "e" x) (is_char "E" x) = false) by (cbn in X; destruct X as [<- | [<- | []]]; repeat split).
  destruct X' as (X1 & X2 & X3 & X4).
  assert (D : forallb is_hex d = true).
  { apply forallb_forall. intros y I. rewrite Forall_forall in F. specialize (F y I). cbn in F. repeat (destruct F as [<- | F]; [reflexivity |]). contradiction. }
  split; [| split; [| split; [| exists "0"%char, (x :: d); auto]]].
  - unfold hex, then_ at 1. rewrite (minus_signed s _ _ H zero_starts). unfold then_. cbn [ch]. change (is_char "0" "0") with true. cbv iota beta. cbn [ch]. rewrite X1. unfold while0. rewrite skip_all by exact D. reflexivity.
  - rewrite (float_signed s _ _ H zero_starts). change ("0"%char :: x :: d) with (["0"%char] ++ x :: d). rewrite fbody_rest.
    + unfold exponent, then_. cbn [ch]. rewrite X4. reflexivity.
    + repeat constructor.
    + exact X2.
    + exact X3.
  - unfold dec, then_ at 1. rewrite (minus_signed s _ _ H zero_starts). reflexivity.
Qed.
Lemma oct_reads : forall s, oct_text s -> oct s = Some [] /\ float s = None /\ dec s = None /\ hex s = None /\ exists x t, signed s (x :: t) /\ starts_number x = true.
Proof.
  intros s (t & d & H & -> & F).
  assert (D : forallb is_oct d = true).
  { apply forallb_forall. intros y I. rewrite Forall_forall in F. specialize (F y I). cbn in F. repeat (destruct F as [<- | F]; [reflexivity |]). contradiction. }
  split; [| split; [| split; [| split; [| exists "0"%char, d; auto]]]].
  - unfold oct, then_ at 1. rewrite (minus_signed s _ _ H zero_starts). unfold then_. cbn [ch]. change (is_char "0" "0") with true. cbv iota beta. unfold while0. rewrite skip_all by exact D. reflexivity.
  - rewrite (float_signed s _ _ H zero_starts). apply fbody_digits. constructor; [now left |]. eapply Forall_impl; [| exact F]. intros y I. unfold digit. cbn in *. tauto.
  - unfold dec, then_ at 1. rewrite (minus_signed s _ _ H zero_starts). reflexivity.
  - unfold hex, then_ at 1. rewrite (minus_signed s _ _ H zero_starts). unfold then_. cbn [ch]. change (is_char "0" "0") with true. cbv iota.
    destruct d as [| y d]; [reflexivity |]. cbn [ch]. inversion F as [| ? ? Y ?]; subst. cbn in Y. repeat (destruct Y as [<- | Y]; [reflexivity |]). contradiction.
Qed.
Lemma lit_step : forall s r, (exists x t, signed s (x :: t) /\ starts_number x = true) ->
  trun lit_g (Chunk s :: r) = match trun (Lex LFloat) (Chunk s :: r) with
    | TSome v r' => TSome (VFloat v) r'
    | TInside => TInside
    | TNone => match trun (Lex LDec) (Chunk s :: r) with
        | TSome v r' => TSome (VDec v) r'
        | TInside => TInside
        | TNone => match trun (Lex LHex) (Chunk s :: r) with
            | TSome v r' => TSome (VHex v) r'
            | TInside => TInside
            | TNone => match trun (Lex LOct) (Chunk s :: r) with
                | TSome v r' => TSome (VOct v) r'
                | TInside => TInside
                | TNone => trun (alts [(k "null" ;;; Ret VNull); (s <- Lex LStr ;; Ret (VString s))]) (Chunk s :: r)
                end
            end
        end
    end.
Proof.
  intros s r (x & t & H & Q).
  assert (M : forall A q (f : text -> G A), In q ["true"; "false"; "-Infinity"; "Infinity"; "NaN"] -> trun (Bind (k q) f) (Chunk s :: r) = TNone).
  { intros A q f I. cbn [trun]. rewrite (tk_number s x t q r H Q I). reflexivity. }
  unfold lit_g. cbn [alts fold_right].
  assert (E : forall A (g h : G A) ts, trun (Alt g h) ts = match trun g ts with TSome a r => TSome a r | TNone => trun h ts | TInside => TInside end) by reflexivity.
  rewrite !E. rewrite !M by (cbn; tauto).
  change (trun (p "[" ;;; p "]" ;;; Ret VArray) (Chunk s :: r)) with (@TNone lit).
  change (trun (p "{" ;;; p "}" ;;; Ret VDict) (Chunk s :: r)) with (@TNone lit). cbv iota.
  assert (B : forall l (f : text -> lit), trun (v <- Lex l ;; Ret (f v)) (Chunk s :: r) = match trun (Lex l) (Chunk s :: r) with TSome v r' => TSome (f v) r' | TNone => TNone | TInside => TInside end) by reflexivity.
  rewrite (B LFloat), (B LDec), (B LHex), (B LOct).
  destruct (trun (Lex LFloat) (Chunk s :: r)); try reflexivity.
  destruct (trun (Lex LDec) (Chunk s :: r)); try reflexivity.
  destruct (trun (Lex LHex) (Chunk s :: r)); try reflexivity.
  destruct (trun (Lex LOct) (Chunk s :: r)); reflexivity.
Qed.
Lemma lit_round : forall v r, lit_ok v -> trun lit_g (lit_tokens v ++ r) = TSome v r.
Proof.
  intros [[|] | | | s | | | | s | s | s | | s] r O; cbn [lit_ok] in O; try reflexivity; cbn [lit_tokens app].
  - apply float_reads in O. destruct O as (O & H). rewrite lit_step by exact H. rewrite (tlex_value LFloat float) by (try exact O; reflexivity). reflexivity.
  - apply dec_reads in O. destruct O as (O & N & H). rewrite lit_step by exact H.
    rewrite (tlex_none LFloat float) by (try exact N; reflexivity). rewrite (tlex_value LDec dec) by (try exact O; reflexivity). reflexivity.
  - apply hex_reads in O. destruct O as (O & N & N2 & H). rewrite lit_step by exact H.
    rewrite (tlex_none LFloat float) by (try exact N; reflexivity). rewrite (tlex_none LDec dec) by (try exact N2; reflexivity).
    rewrite (tlex_value LHex hex) by (try exact O; reflexivity). reflexivity.
  - apply oct_reads in O. destruct O as (O & N & N2 & N3 & H). rewrite lit_step by exact H.
    rewrite (tlex_none LFloat float) by (try exact N; reflexivity). rewrite (tlex_none LDec dec) by (try exact N2; reflexivity).
    rewrite (tlex_none LHex hex) by (try exact N3; reflexivity). rewrite (tlex_value LOct oct) by (try exact O; reflexivity). reflexivity.
Qed.
