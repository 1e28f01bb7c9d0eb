(** Reading a UDL file. *)
From Verif Require Import Weed_Model Weed_Spec Weed_Tokens Weed_Refine Weed_Words Weed_Round Weed_Defs.

(** ** The lexers of the grammar *)
Ltac lex_good := first [exact I | (split; [reflexivity | discriminate]) | (split; [reflexivity |]; split; [reflexivity |]; split; discriminate)].
Ltac goods := cbn [good alts fold_right map app]; repeat (match goal with |- _ /\ _ => split | |- forall _, _ => intro end; cbn [good alts fold_right map app]); try lex_good; try assumption.
Lemma good_null : good null.
Proof. unfold null, given, p. goods. Qed.
Lemma good_nonany : forall d, good (nonany_g d).
Proof.
  induction d as [| d IH]; [exact I |]. rewrite nonany_step.
  assert (L : forall l : list (G ty), Forall good l -> good (alts l)) by (induction 1; [exact I | split; assumption]).
  assert (NM : forall l, Forall (fun s => lexer_ok (LKw s)) l -> Forall good (map named l)).
  { induction 1; constructor; [| assumption]. unfold named, k. cbn [good]. split; [assumption | intros _; split; [apply good_null | intros; exact I]]. }
  pose proof good_null as N. assert (An : good (any_or d)) by (unfold any_or, k; goods).
  apply L. repeat (apply Forall_app; split).
  - repeat apply Forall_cons; try apply Forall_nil; unfold promise_g, integer, floating, given, k, p; goods.
  - apply NM. repeat constructor; discriminate.
  - repeat apply Forall_cons; try apply Forall_nil; unfold sequence_g, k, p. goods.
  - apply NM. repeat constructor; discriminate.
  - repeat apply Forall_cons; try apply Forall_nil; unfold frozen_g, record_g, record_key, plain_g, ident, keys_g, k, p; goods.
Qed.
Lemma good_type : forall d, good (type_g d).
Proof. intros d. pose proof (good_nonany d). unfold type_g, k. goods. Qed.
Lemma good_return : forall d, good (return_g d).
Proof. intros d. pose proof (good_type d). unfold return_g, k. goods. Qed.
Lemma good_attrs : good attrs_g.
Proof. unfold attrs_g, attr_g, ident, p. goods. Qed.
Lemma good_default : good default_g.
Proof. unfold default_g, lit_g, k, p. goods. Qed.
Lemma good_args : forall d, good (args_g d).
Proof.
  intros d. pose proof (good_type d). pose proof good_attrs. pose proof good_default. unfold args_g, arg_g, given, ident, k, p. goods.
  all: match goal with |- good (if ?b then _ else _) => destruct b; goods end.
Qed.
Lemma good_field : forall d, good (field_g d).
Proof. intros d. pose proof (good_type d). pose proof good_attrs. pose proof good_default. unfold field_g, given, ident, k, p. goods. Qed.
Lemma good_one_of : forall l, Forall (fun s => lexer_ok (LKw s)) l -> good (one_of l).
Proof.
  intros l F. unfold one_of. cbn [good]. split; [| intros; exact I]. induction F; [exact I |]. cbn [map alts fold_right good]. split; [| exact IHF].
  unfold k. cbn [good]. split; [assumption | intros; exact I].
Qed.
Lemma good_operation : forall sp d, good (operation_g sp d).
Proof.
  intros sp d. pose proof (good_return d). pose proof good_attrs. pose proof (good_args d). unfold operation_g. cbn [good]. repeat (split; [assumption || exact I | intro]).
  split; [destruct sp; [| exact I]; cbn [good]; split; [apply good_one_of; repeat constructor; discriminate |]; intro; split; [apply good_one_of; repeat constructor; discriminate |]; intro; exact I |].
  intro. unfold ident, p. goods.
Qed.
Lemma good_members : forall d, good (members_g d).
Proof.
  intros d. pose proof good_attrs. pose proof (good_args d). pose proof (good_operation true d). unfold members_g, constructor_g, k, p. cbn [good]. split; [| assumption]. goods.
Qed.
Lemma good_def : forall d, good (def_g d).
Proof.
  intros d. pose proof good_attrs. pose proof (good_args d). pose proof (good_return d). pose proof (good_members d). pose proof (good_operation false d).
  pose proof (good_field d). pose proof (good_type d). rewrite def_step.
  unfold callback_g, cbi_g, interface_g, namespace_g, dictionary_g, enum_g, typedef_g, parent_g, variants_g, braced, ident, k, p. goods.
Qed.

(** ** What is left *)
Lemma sp_stop : forall s, stops (sp s).
Proof.
  assert (H : forall n s, List.length s <= n -> stops (sp s)).
  { induction n as [| n IH]; intros s L; (destruct (sp1 s) as [r |] eqn:E; [pose proof (sp1_length s r E) as K | unfold stops; rewrite sp_stops by exact E; exact E]).
    - lia.
    - rewrite (sp_step s r E). apply IH. lia. }
  intros s. exact (H _ s (le_n _)).
Qed.
Definition ends {A} (g : G A) : Prop := forall s a s', run g s = Some (a, s') -> exists x, s' = sp x.
Lemma ends_lex : forall l, ends (Lex l).
Proof. intros l s a s' E. cbn [run] in E. unfold ws in E. destruct (lex l (sp s)) as [[v r] |]; [| discriminate E]. injection E as <- <-. now exists r. Qed.
Lemma ends_bind : forall A B (g : G A) (f : A -> G B), (forall a, ends (f a)) -> ends (Bind g f).
Proof. intros A B g f H s a s' E. cbn [run] in E. destruct (run g s) as [[b r] |]; [| discriminate E]. exact (H b r a s' E). Qed.
Lemma ends_ret : forall A B (g : G A) (f : A -> B), ends g -> ends (Bind g (fun a => Ret (f a))).
Proof. intros A B g f H s a s' E. cbn [run] in E. destruct (run g s) as [[b r] |] eqn:Q; [| discriminate E]. injection E as _ <-. exact (H s b r Q). Qed.
Lemma ends_alt : forall A (g h : G A), ends g -> ends h -> ends (Alt g h).
Proof. intros A g h H K s a s' E. cbn [run] in E. destruct (run g s) as [[b r] |] eqn:Q; [injection E as <- <-; exact (H s b r Q) | exact (K s a s' E)]. Qed.
Lemma ends_braced : forall A (g : G A), ends (braced g).
Proof. intros A g. unfold braced. apply ends_bind. intros _. apply ends_bind. intros a. apply ends_bind. intros _. apply ends_ret, ends_lex. Qed.
Lemma ends_def : forall d, ends (def_g d).
Proof.
  intros d. rewrite def_step. cbn [alts fold_right]. repeat apply ends_alt; [| | | | | | | intros s a s' E; discriminate E];
    unfold callback_g, cbi_g, interface_g, namespace_g, dictionary_g, enum_g, typedef_g;
    repeat first [apply (ends_ret _ _ (braced _)), ends_braced | apply (ends_ret _ _ (p ";")), ends_lex | (apply ends_bind; intro)].
Qed.
Lemma many_ends : forall A (g : G A), ends g -> forall f s l s', many_loop (run g) f s = Some (l, s') -> l = [] /\ s' = s \/ exists x, s' = sp x.
Proof.
  intros A g H. induction f as [| f IH]; intros s l s' E; cbn [many_loop] in E; destruct (run g s) as [[a r] |] eqn:Q.
  - destruct (List.length r =? List.length s)%nat; discriminate E.
  - injection E as <- <-. now left.
  - destruct (List.length r =? List.length s)%nat; [discriminate E |]. destruct (many_loop (run g) f r) as [[l2 r2] |] eqn:M; [| discriminate E].
    injection E as <- <-. right. destruct (IH r l2 r2 M) as [(_ & ->) | K]; [exact (H s a r Q) | exact K].
  - injection E as <- <-. now left.
Qed.
Lemma definitions_spelt : forall z l s, stops z -> (forall x, lexer_ok x -> lex x z = None) -> tag (tx "///") (skip is_white z) = None ->
  Forall def_ok l -> List.length (udl_tokens l) <= List.length s -> spelt z (udl_tokens l) s -> exists s', definitions s = Some (l, s') /\ spelt z [] s'.
Proof.
  intros z l s Zs Zl Zd F L H. unfold definitions.
  pose proof (run_agrees z Zs Zl Zd _ (Many (def_g (List.length s))) (good_def _) (udl_tokens l) s H) as K.
  rewrite (udl_round (List.length s) l F L) in K. destruct K as (s' & E & S & _). exists s'. auto.
Qed.
Lemma read_documents : forall l s, Forall def_ok l -> l <> [] -> spells (udl_tokens l) s -> definitions s = Some (l, []).
Proof.
  intros l s F N H.
  destruct (definitions_spelt [] l s eq_refl lex_empty eq_refl F (lex_length _ _ H) (spells_nothing _ _ H)) as (s' & E & S).
  rewrite E. unfold definitions in E. cbn [run] in E.
  destruct (many_ends _ _ (ends_def _) _ _ _ _ E) as [(-> & _) | (x & ->)]; [congruence |].
  destruct (spelt_sp [] eq_refl [] (sp x) S) as [_ K]. rewrite <- (K eq_refl). rewrite (sp_stops (sp x) (sp_stop x)). reflexivity.
Qed.
Lemma one_document : forall l l' s, Forall def_ok l -> Forall def_ok l' -> spells (udl_tokens l) s -> spells (udl_tokens l') s -> l = l'.
Proof.
  intros l l' s F F' H H'.
  destruct (definitions_spelt [] l s eq_refl lex_empty eq_refl F (lex_length _ _ H) (spells_nothing _ _ H)) as (x & E & _).
  destruct (definitions_spelt [] l' s eq_refl lex_empty eq_refl F' (lex_length _ _ H') (spells_nothing _ _ H')) as (y & E' & _). congruence.
Qed.

(** ** Trimming *)
Lemma trimmed_b : forall x, trimmed x = mem x (map ascii_of_nat [32; 9; 10; 11; 12; 13]).
Proof. bytes; reflexivity. Qed.
Lemma edge_is : forall x, edge x <-> trimmed x = false.
Proof. intros x. rewrite trimmed_b. unfold edge. rewrite <- mem_in. destruct (mem x _); split; congruence. Qed.
Lemma skip_trimmed : forall w s, forallb trimmed w = true -> skip trimmed (w ++ s) = skip trimmed s.
Proof. induction w as [| x w IH]; intros s H; [reflexivity |]. cbn [forallb app skip] in *. apply andb_true_iff in H. destruct H as [-> H]. apply IH, H. Qed.
Lemma skip_edge : forall x s, trimmed x = false -> skip trimmed (x :: s) = x :: s.
Proof. intros x s E. cbn [skip]. rewrite E. reflexivity. Qed.
Lemma skip_split : forall q s, exists a, s = a ++ skip q s /\ forallb q a = true.
Proof.
  intros q. induction s as [| x s (a & E & H)]; [exists []; auto |]. cbn [skip]. destruct (q x) eqn:Q; [| exists []; auto].
  exists (x :: a). cbn [app forallb]. rewrite Q. split; [congruence | exact H].
Qed.
(** Up to a character that stays, only the end is cut. *)
Lemma trim_keeps : forall w x u y v, forallb trimmed w = true -> trimmed x = false -> trimmed y = false ->
  exists v' c, trim (w ++ x :: u ++ y :: v) = x :: u ++ y :: v' /\ v = v' ++ c /\ forallb trimmed c = true.
Proof.
  intros w x u y v Fw X Y. unfold trim. rewrite (skip_trimmed w _ Fw), (skip_edge x _ X). destruct (skip_split trimmed (rev v)) as (a & E & H).
  replace (rev (x :: u ++ y :: v)) with (rev v ++ y :: rev (x :: u)) by (cbn [rev]; rewrite rev_app_distr; cbn [rev]; rewrite <- !app_assoc; reflexivity).
  rewrite E, <- app_assoc. rewrite (skip_trimmed a _ H). set (b := skip trimmed (rev v)) in *.
  exists (rev b), (rev a). split; [| split].
  - assert (K : exists b1, skip trimmed (b ++ y :: rev (x :: u)) = b1 ++ y :: rev (x :: u) /\ b1 = b).
    { exists b. split; [| reflexivity]. destruct b as [| z b2] eqn:B; [apply skip_edge, Y |]. cbn [app]. apply skip_edge.
      subst b. clear -B. destruct (trimmed z) eqn:Z; [| reflexivity]. exfalso. revert B. induction (rev v) as [| t r IH]; cbn [skip]; [discriminate |].
      destruct (trimmed t) eqn:T; [exact IH |]. intros B. injection B as -> _. congruence. }
    destruct K as (b1 & K & ->). rewrite K. rewrite rev_app_distr. cbn [rev]. rewrite !rev_app_distr, !rev_involutive. cbn [rev app]. rewrite <- app_assoc. reflexivity.
  - rewrite <- rev_app_distr, <- E. symmetry. apply rev_involutive.
  - apply forallb_forall. intros t I. rewrite forallb_forall in H. apply H. apply in_rev. exact I.
Qed.
Lemma trim_edges : forall w s w', forallb trimmed w = true -> forallb trimmed w' = true -> edges s -> trim (w ++ s ++ w') = s.
Proof.
  intros w s w' Fw Fw' (x & u & -> & X & H). apply edge_is in X.
  assert (G : trim (x :: u) = x :: u).
  { unfold trim. rewrite (skip_edge x u X). destruct H as [-> | (u' & y & -> & Y)].
    - cbn [rev app]. rewrite (skip_edge x [] X). reflexivity.
    - apply edge_is in Y. change (x :: u' ++ [y]) with ((x :: u') ++ [y]). rewrite rev_app_distr. cbn [rev app]. rewrite skip_edge by exact Y.
      cbn [rev]. rewrite !rev_app_distr, rev_involutive. reflexivity. }
  rewrite <- G at 2. unfold trim. rewrite (skip_trimmed w _ Fw). cbn [app]. rewrite !(skip_edge x _ X).
  change (x :: u ++ w') with ((x :: u) ++ w'). rewrite rev_app_distr, skip_trimmed; [reflexivity |].
  apply forallb_forall. intros t I. rewrite forallb_forall in Fw'. apply Fw', in_rev, I.
Qed.
Lemma read_file : forall l s w w', Forall def_ok l -> l <> [] -> spells (udl_tokens l) s -> edges s -> Forall white w -> Forall white w' ->
  read_udl (w ++ s ++ w') = Parsed l.
Proof.
  intros l s w w' F N H Ed Fw Fw'.
  assert (K : forall v, Forall white v -> forallb trimmed v = true).
  { intros v Fv. apply forallb_forall. intros x I. rewrite Forall_forall in Fv. specialize (Fv x I). apply white_is in Fv. unfold trimmed. rewrite Fv. reflexivity. }
  unfold read_udl. rewrite trim_edges by auto. rewrite (read_documents l s F N H). reflexivity.
Qed.

(** ** No panic *)
Definition shrinks {A} (g : G A) : Prop := forall s a s', run g s = Some (a, s') -> List.length s' < List.length s.
Definition keeps {A} (g : G A) : Prop := forall s a s', run g s = Some (a, s') -> List.length s' <= List.length s.
Lemma until_quote_length : forall s v r, until_quote s = Some (v, r) -> List.length r <= List.length s.
Proof.
  induction s as [| x s IH]; intros v r; cbn [until_quote]; [discriminate |]. destruct (is_char """" x); [intros E; injection E as <- <-; cbn; lia |].
  destruct (until_quote s) as [[v' r'] |] eqn:Q; [| discriminate]. intros E. injection E as <- <-. specialize (IH _ _ eq_refl). cbn. lia.
Qed.
Lemma value_keeps : forall f, shortens f -> forall s v r, value f s = Some (v, r) -> List.length r <= List.length s.
Proof. intros f H s v r E. unfold value in E. destruct (f s) as [r' |] eqn:Q; [| discriminate E]. injection E as <- <-. exact (H _ _ Q). Qed.
Lemma lex_keeps : forall l s v r, lex l s = Some (v, r) -> List.length r <= List.length s.
Proof.
  intros [q | c | | | | | |] s v r; cbn [lex].
  - apply value_keeps, sh_kw.
  - apply value_keeps, sh_tag.
  - destruct (ident_start s) as [s1 |] eqn:Q; [| discriminate]. intros E. apply value_keeps in E; [| apply sh_ident_body]. pose proof (sh_ident_start _ _ Q). lia.
  - apply value_keeps, sh_dec.
  - apply value_keeps, sh_hex.
  - apply value_keeps, sh_oct.
  - apply value_keeps, sh_float.
  - destruct s as [| x s]; [discriminate |]. destruct (is_char """" x); [| discriminate]. intros E. apply until_quote_length in E. cbn. lia.
Qed.
Lemma until_newline_length : forall s v r, until_newline s = Some (v, r) -> List.length r < List.length s.
Proof.
  induction s as [| x s IH]; intros v r; cbn [until_newline]; [discriminate |]. destruct (Ascii.eqb x newline); [intros E; injection E as <- <-; cbn; lia |].
  destruct (until_newline s) as [[v' r'] |]; [| discriminate]. intros E. injection E as <- <-. specialize (IH _ _ eq_refl). cbn. lia.
Qed.
Lemma doc_loop_length : forall f s l r, doc_loop f s = (l, r) -> List.length r <= List.length s.
Proof.
  induction f as [| f IH]; intros s l r; cbn [doc_loop]; [intros E; injection E as <- <-; lia |]. unfold doc_line.
  destruct (tag (tx "///") (skip is_white s)) as [s1 |] eqn:T; [| intros E; injection E as <- <-; lia].
  destruct (until_newline s1) as [[v s2] |] eqn:U; [| intros E; injection E as <- <-; lia].
  destruct (doc_loop f s2) as [l' r'] eqn:D. intros E. injection E as <- <-. apply IH in D. apply until_newline_length in U. apply tag_length in T.
  pose proof (skip_length is_white s). lia.
Qed.
Lemma run_keeps : forall A (g : G A), keeps g.
Proof.
  intros A g. induction g as [l | | A a | A B g IHg f IHf | A | A g IHg h IHh | A g IHg | A g IHg | A one sep g IHg]; intros s x s' E; cbn [run] in E.
  - unfold ws in E. destruct (lex l (sp s)) as [[v r] |] eqn:L; [| discriminate E]. injection E as <- <-. apply lex_keeps in L. pose proof (sp_length s). pose proof (sp_length r). lia.
  - unfold docstring in E. destruct (doc_loop (List.length s) s) as [[| v l] r] eqn:D; [discriminate E |]. injection E as <- <-. exact (doc_loop_length _ _ _ _ D).
  - injection E as <- <-. lia.
  - destruct (run g s) as [[b r] |] eqn:Q; [| discriminate E]. apply IHg in Q. apply IHf in E. lia.
  - discriminate E.
  - destruct (run g s) as [[b r] |] eqn:Q; [injection E as <- <-; exact (IHg _ _ _ Q) | exact (IHh _ _ _ E)].
  - destruct (run g s) as [[b r] |] eqn:Q; injection E as <- <-; [exact (IHg _ _ _ Q) | lia].
  - assert (H : forall f s l s', many_loop (run g) f s = Some (l, s') -> List.length s' <= List.length s); [| exact (H _ _ _ _ E)].
    clear -IHg. induction f as [| f IH]; intros s l s' E; cbn [many_loop] in E; (destruct (run g s) as [[b r] |] eqn:Q; [| injection E as <- <-; lia]);
      (destruct (List.length r =? List.length s)%nat; [discriminate E |]).
    + discriminate E.
    + destruct (many_loop (run g) f r) as [[l2 r2] |] eqn:M; [| discriminate E]. injection E as <- <-. apply IHg in Q. apply IH in M. lia.
  - assert (H : forall f s l s', sep_loop (ws sep) (run g) f s = Some (l, s') -> List.length s' <= List.length s).
    { clear -IHg. assert (W : forall s v r, ws sep s = Some (v, r) -> List.length r <= List.length s).
      { intros s v r E. unfold ws in E. destruct (lex sep (sp s)) as [[u q] |] eqn:L; [| discriminate E]. injection E as <- <-. apply lex_keeps in L. pose proof (sp_length s). pose proof (sp_length q). lia. }
      induction f as [| f IH]; intros s l s' E; cbn [sep_loop] in E; (destruct (ws sep s) as [[v s1] |] eqn:S; [| injection E as <- <-; lia]);
        (destruct (List.length s1 =? List.length s)%nat; [discriminate E |]); (destruct (run g s1) as [[b r] |] eqn:Q; [| injection E as <- <-; lia]).
      - discriminate E.
      - destruct (sep_loop (ws sep) (run g) f r) as [[l2 r2] |] eqn:M; [| discriminate E]. injection E as <- <-. apply W in S. apply IHg in Q. apply IH in M. lia. }
    destruct (run g s) as [[b r] |] eqn:Q.
    + destruct (sep_loop (ws sep) (run g) (List.length r) r) as [[l2 r2] |] eqn:M; [| discriminate E]. injection E as <- <-. apply IHg in Q. apply H in M. lia.
    + destruct one; [discriminate E |]. injection E as <- <-. lia.
Qed.
Lemma shrinks_kw : forall s, s <> "" -> shrinks (k s).
Proof.
  intros q N s a s' E. unfold k in E. cbn [run] in E. unfold ws in E. cbn [lex] in E. unfold value, kw in E.
  destruct (tag (tx q) (sp s)) as [r |] eqn:T; [| discriminate E]. destruct (ch is_word r); [discriminate E |]. injection E as <- <-.
  apply tag_length in T. pose proof (sp_length s). pose proof (sp_length r). assert (0 < List.length (tx q)) by (destruct q; [congruence | cbn; lia]). lia.
Qed.
Lemma shrinks_first : forall A B (g : G A) (f : A -> G B), shrinks g -> shrinks (Bind g f).
Proof.
  intros A B g f H s a s' E. cbn [run] in E. destruct (run g s) as [[b r] |] eqn:Q; [| discriminate E]. apply H in Q. apply run_keeps in E. lia.
Qed.
Lemma shrinks_then : forall A B (g : G A) (f : A -> G B), (forall a, shrinks (f a)) -> shrinks (Bind g f).
Proof.
  intros A B g f H s a s' E. cbn [run] in E. destruct (run g s) as [[b r] |] eqn:Q; [| discriminate E]. apply H in E. apply run_keeps in Q. lia.
Qed.
Lemma shrinks_alt : forall A (g h : G A), shrinks g -> shrinks h -> shrinks (Alt g h).
Proof. intros A g h H K s a s' E. cbn [run] in E. destruct (run g s) as [[b r] |] eqn:Q; [injection E as <- <-; exact (H s b r Q) | exact (K s a s' E)]. Qed.
Lemma shrinks_def : forall d, shrinks (def_g d).
Proof.
  intros d. rewrite def_step. cbn [alts fold_right]. repeat apply shrinks_alt; [| | | | | | | intros s a s' E; discriminate E];
    unfold callback_g, cbi_g, interface_g, namespace_g, dictionary_g, enum_g, typedef_g;
    repeat first [apply (shrinks_first _ _ (k _)), shrinks_kw; discriminate | (apply shrinks_then; intro)].
Qed.
Lemma many_total : forall A (g : G A), shrinks g -> forall f s, List.length s <= f -> exists l s', many_loop (run g) f s = Some (l, s').
Proof.
  intros A g H. induction f as [| f IH]; intros s L; cbn [many_loop]; (destruct (run g s) as [[a r] |] eqn:Q; [apply H in Q | eauto]).
  - lia.
  - replace (List.length r =? List.length s)%nat with false by (symmetry; apply Nat.eqb_neq; lia).
    destruct (IH r ltac:(lia)) as (l & s' & ->). eauto.
Qed.
Lemma no_panic : forall s, read_udl s <> Panic.
Proof.
  intros s. unfold read_udl, definitions. cbn [run]. destruct (many_total _ _ (shrinks_def (List.length (trim s))) _ (trim s) (le_n _)) as (l & s' & ->).
  destruct s'; discriminate.
Qed.

(** ** Comments that are refused *)
Lemma no_newline : forall c, ~ In newline c -> after_newline c = None.
Proof.
  induction c as [| x c IH]; intros N; [reflexivity |]. cbn [after_newline]. destruct (Ascii.eqb_spec x newline) as [-> | D]; [exfalso; apply N; now left |].
  apply IH. intros I. apply N. now right.
Qed.
Lemma line_end : forall c, ~ In newline c -> (forall c', c <> "/"%char :: c') ->
  stops (tx "//" ++ c) /\ (forall l, lexer_ok l -> lex l (tx "//" ++ c) = None) /\ tag (tx "///") (skip is_white (tx "//" ++ c)) = None.
Proof.
  intros c N S. split; [| split].
  - unfold stops, sp1, or_, line_comment, block_comment, while1. cbn [tx list_ascii_of_string app tag ch]. rewrite !Ascii.eqb_refl. cbv iota beta.
    destruct c as [| x c]; [reflexivity |]. destruct (Ascii.eqb_spec "/"%char x) as [<- | D]; [exfalso; exact (S c eq_refl) |].
    rewrite no_newline by exact N. reflexivity.
  - intros l O. apply lex_slash, O.
  - cbn [tx list_ascii_of_string app]. rewrite skip_stop by reflexivity. cbn [tag]. rewrite !Ascii.eqb_refl. cbv iota beta.
    destruct c as [| x c]; [reflexivity |]. destruct (Ascii.eqb_spec "/"%char x) as [<- | D]; [exfalso; exact (S c eq_refl) | reflexivity].
Qed.
Lemma last_comment : forall l s c, Forall def_ok l -> spells (udl_tokens l) s -> (exists x u, s = x :: u /\ edge x) -> ~ In newline c -> (forall c', c <> "/"%char :: c') ->
  read_udl (s ++ tx "//" ++ c ++ [newline]) = ParseError.
Proof.
  intros l s c F H (x & u & -> & X) N S. apply edge_is in X.
  destruct (trim_keeps [] x (u ++ ["/"%char]) "/"%char (c ++ [newline]) eq_refl X eq_refl) as (v' & w & E & Ec & _).
  assert (Ev : exists w', c = v' ++ w' \/ v' = c ++ [newline]).
  { assert (G : forall a b (z : ascii) (y : text), a ++ [z] = y ++ b -> exists w', a = y ++ w' \/ y = a ++ [z]).
    { induction a as [| t a IH]; intros b z y Q; destruct y as [| y0 y]; cbn [app] in *.
      - exists []. now left.
      - injection Q as <- Q. destruct y; [exists []; now right | discriminate Q].
      - exists (t :: a). now left.
      - injection Q as <- Q. destruct (IH _ _ _ Q) as (w' & [-> | ->]); exists w'; [now left | now right]. }
    exact (G _ _ _ _ Ec). }
  assert (Q : exists v, trim ((x :: u) ++ tx "//" ++ c ++ [newline]) = (x :: u) ++ tx "//" ++ v /\ ~ In newline v /\ forall v2, v <> "/"%char :: v2).
  { cbn [tx list_ascii_of_string app]. cbn [app] in E. rewrite <- app_assoc in E. cbn [app] in E. rewrite E. destruct Ev as (w' & [-> | Ev]).
    - exists v'. split; [rewrite <- app_assoc; reflexivity |]. split.
      + intros I. apply N, in_app_iff. now left.
      + intros v2 ->. exact (S (v2 ++ w') eq_refl).
    - exfalso. subst v'. assert (Hl : forall g (t : ascii), trim (g ++ [t]) = g ++ [t] -> trimmed t = false \/ g = []).
      { intros g t T. destruct (trimmed t) eqn:R; [| now left]. exfalso. unfold trim in T. apply (f_equal (@List.length _)) in T. rewrite rev_length in T.
        pose proof (skip_length trimmed (rev (skip trimmed (g ++ [t])))) as L1.
        destruct (skip_split trimmed (g ++ [t])) as (a & Ea & Ha). destruct (skip trimmed (g ++ [t])) as [| y0 y] eqn:Y.
        - cbn in T. rewrite app_length in T. cbn in T. lia.
        - assert (Z : exists y', y0 :: y = y' ++ [t]).
          { assert (NE : y0 :: y <> []) by discriminate. destruct (exists_last NE) as (y' & t' & Ey). exists y'. rewrite Ey. f_equal.
            rewrite Ey in Ea. rewrite app_assoc in Ea. apply app_inj_tail in Ea. destruct Ea as [_ ->]. reflexivity. }
          destruct Z as (y' & Z). rewrite Z in T. rewrite rev_app_distr in T. cbn [rev app skip] in T. rewrite R in T.
          pose proof (skip_length trimmed (rev y')) as L2. rewrite rev_length in L2.
          apply (f_equal (@List.length _)) in Ea. rewrite Z in Ea. rewrite !app_length in Ea. cbn [List.length] in Ea. rewrite app_length in T. cbn [List.length] in T. lia. }
      assert (T : trim ((x :: u ++ "/"%char :: "/"%char :: c) ++ [newline]) = (x :: u ++ "/"%char :: "/"%char :: c) ++ [newline]).
      { cbn [app]. rewrite <- app_assoc. cbn [app]. rewrite E. rewrite <- app_assoc. reflexivity. }
      destruct (Hl _ _ T) as [R | R]; discriminate R. }
  destruct Q as (v & Ev' & Nv & Sv). unfold read_udl. rewrite Ev'. destruct (line_end v Nv Sv) as (Zs & Zl & Zd).
  pose proof (spells_slash (("/"%char) :: v) _ _ H) as K. change ("/"%char :: "/"%char :: v) with (tx "//" ++ v) in K.
  assert (L : List.length (udl_tokens l) <= List.length ((x :: u) ++ tx "//" ++ v)) by (pose proof (lex_length _ _ H); rewrite app_length; lia).
  destruct (definitions_spelt (tx "//" ++ v) l _ Zs Zl Zd F L K) as (s' & -> & S'). inversion S' as [b B Eb | |]. destruct b; reflexivity.
Qed.
