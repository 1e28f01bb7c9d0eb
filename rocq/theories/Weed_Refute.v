(** Texts that are refused, and texts that are read as something else. *)
From Verif Require Import Weed_Model Weed_Spec Weed_Tokens Weed_Refine Weed_Words Weed_Round Weed_Defs Weed_Main.

(** ** A comment before the first documentation *)
Definition dead (s : text) : Prop := (forall l, lexer_ok l -> ws l s = None) /\ docstring s = None.
Lemma dead_attrs : forall s, dead s -> run attrs_g s = Some (None, s).
Proof. intros s [H _]. unfold attrs_g, p. cbn [run]. rewrite H by (repeat split; discriminate). reflexivity. Qed.
Lemma dead_kw : forall q s, dead s -> lexer_ok (LKw q) -> run (k q) s = None.
Proof. intros q s [H _] O. unfold k. cbn [run]. apply H, O. Qed.
Lemma dead_head : forall A q (f : option text -> option (list attr) -> text -> G A) s, dead s -> lexer_ok (LKw q) ->
  run (x <- Opt Doc ;; y <- attrs_g ;; z <- k q ;; f x y z) s = None.
Proof.
  intros A q f s D O. cbn [run]. destruct D as [H E]. rewrite E. rewrite dead_attrs by (split; assumption). rewrite dead_kw by (try exact O; split; assumption). reflexivity.
Qed.
Lemma dead_plain : forall A q (f : option (list attr) -> text -> G A) s, dead s -> lexer_ok (LKw q) -> run (y <- attrs_g ;; z <- k q ;; f y z) s = None.
Proof. intros A q f s D O. cbn [run]. rewrite dead_attrs by exact D. rewrite dead_kw by assumption. reflexivity. Qed.
Lemma dead_def : forall d s, dead s -> run (def_g d) s = None.
Proof.
  intros d s D. rewrite def_step. cbn [alts fold_right].
  assert (E : forall A (g h : G A), run g s = None -> run (Alt g h) s = run h s) by (intros A g h Q; cbn [run]; rewrite Q; reflexivity).
  unfold callback_g, cbi_g, interface_g, namespace_g, dictionary_g, enum_g, typedef_g.
  repeat (rewrite E; [| first [apply dead_head | apply dead_plain]; [exact D | split; [reflexivity | discriminate]]]). reflexivity.
Qed.
Lemma dead_definitions : forall s, dead s -> definitions s = Some ([], s).
Proof. intros s D. unfold definitions. cbn [run]. destruct (List.length s) eqn:L; cbn [many_loop]; rewrite dead_def by exact D; reflexivity. Qed.
Lemma comment_hides : forall x b, blank (x :: b) -> edge x -> forall s, tag (tx "///") (skip is_white ((x :: b) ++ s)) = None.
Proof.
  intros x b B X s. apply edge_is in X. inversion B as [| y b' H B' | t b' N S B' E | t b' N B' E]; subst.
  - apply white_is in H. unfold trimmed in X. rewrite H in X. discriminate X.
  - cbn [app]. rewrite skip_stop by reflexivity. cbn [tx list_ascii_of_string tag]. rewrite !Ascii.eqb_refl. cbv iota beta. rewrite <- app_assoc.
    destruct t as [| y t]; [reflexivity |]. cbn [app]. destruct (Ascii.eqb_spec "/"%char y) as [<- | D]; [exfalso; exact (S t eq_refl) | reflexivity].
  - cbn [app]. rewrite skip_stop by reflexivity. reflexivity.
Qed.
Lemma first_dead : forall x b r, blank (x :: b) -> edge x -> dead ((x :: b) ++ tx "///" ++ r).
Proof.
  intros x b r B X. split.
  - intros l O. unfold ws. rewrite (sp_blank _ B), sp_stops by apply stops_doc. cbn [tx list_ascii_of_string app]. rewrite lex_slash by exact O. reflexivity.
  - unfold docstring. replace (doc_loop _ _) with (@nil text, (x :: b) ++ tx "///" ++ r); [reflexivity |].
    symmetry. cbn [app List.length doc_loop]. unfold doc_line. change (x :: b ++ tx "///" ++ r) with ((x :: b) ++ tx "///" ++ r). rewrite comment_hides by assumption. reflexivity.
Qed.
Lemma first_comment : forall x b r, blank (x :: b) -> edge x -> read_udl ((x :: b) ++ tx "///" ++ r) = ParseError.
Proof.
  intros x b r B X. pose proof X as X'. apply edge_is in X'.
  destruct (trim_keeps [] x (b ++ tx "//") "/"%char r eq_refl X' eq_refl) as (v & c & E & _).
  assert (Q : trim ((x :: b) ++ tx "///" ++ r) = (x :: b) ++ tx "///" ++ v).
  { cbn [tx list_ascii_of_string app] in *. rewrite <- !app_assoc in E. cbn [app] in E. rewrite E. reflexivity. }
  unfold read_udl. rewrite Q, dead_definitions by (apply first_dead; assumption). reflexivity.
Qed.
