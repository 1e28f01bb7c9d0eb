(** Grammars on tokens, and that they agree with grammars on texts. *)
From Verif Require Import Weed_Model Weed_Spec Weed_Tokens.

(** On tokens a grammar gives a result, or fails, or would stop inside a token. *)
Inductive tres (A : Type) := TSome (a : A) (r : list token) | TNone | TInside.
Arguments TSome {A} a r. Arguments TNone {A}. Arguments TInside {A}.
Definition tlex (l : lexer) (ts : list token) : tres text :=
  match ts with
  | [] => TNone
  | Chunk w :: ts' =>
      if of_chunk l then match lex l w with Some (v, []) => TSome v ts' | Some (_, _ :: _) => TInside | None => TNone end else TNone
  | Punct c :: ts' => match l with LPunct c' => if Ascii.eqb c' c then TSome [c] ts' else TNone | _ => TNone end
  | Str s :: ts' => match l with LStr => TSome s ts' | _ => TNone end
  | DocLine _ :: _ => TNone
  end.
Fixpoint tdocs (ts : list token) : list text * list token :=
  match ts with DocLine d :: ts' => let '(l, r) := tdocs ts' in (d :: l, r) | _ => ([], ts) end.
Definition tdoc (ts : list token) : tres text := match tdocs ts with ([], _) => TNone | (l, r) => TSome (join l) r end.
Fixpoint tmany {A} (q : list token -> tres A) (fuel : nat) (ts : list token) : tres (list A) :=
  match q ts with
  | TNone => TSome [] ts
  | TInside => TInside
  | TSome a ts' =>
      if (List.length ts' =? List.length ts)%nat then TInside
      else match fuel with
           | O => TInside
           | S f => match tmany q f ts' with TSome l r => TSome (a :: l) r | TNone => TNone | TInside => TInside end
           end
  end.
Fixpoint tsep {A} (sep : lexer) (q : list token -> tres A) (fuel : nat) (ts : list token) : tres (list A) :=
  match tlex sep ts with
  | TNone => TSome [] ts
  | TInside => TInside
  | TSome _ ts1 =>
      match q ts1 with
      | TNone => TSome [] ts
      | TInside => TInside
      | TSome a ts2 =>
          match fuel with
          | O => TInside
          | S f => match tsep sep q f ts2 with TSome l r => TSome (a :: l) r | TNone => TNone | TInside => TInside end
          end
      end
  end.
Fixpoint trun {A} (g : G A) : list token -> tres A :=
  match g in G A return list token -> tres A with
  | Lex l => tlex l
  | Doc => tdoc
  | Ret a => fun ts => TSome a ts
  | Bind g f => fun ts => match trun g ts with TSome a ts' => trun (f a) ts' | TNone => TNone | TInside => TInside end
  | Never => fun _ => TNone
  | Alt g h => fun ts => match trun g ts with TSome a r => TSome a r | TNone => trun h ts | TInside => TInside end
  | Opt g => fun ts => match trun g ts with TSome a r => TSome (Some a) r | TNone => TSome None ts | TInside => TInside end
  | Many g => fun ts => tmany (trun g) (List.length ts) ts
  | Sep one sep g => fun ts =>
      match trun g ts with
      | TSome a r => match tsep sep (trun g) (List.length r) r with TSome l r' => TSome (a :: l) r' | TNone => TNone | TInside => TInside end
      | TNone => if one then TNone else TSome [] ts
      | TInside => TInside
      end
  end.
Fixpoint good {A} (g : G A) : Prop :=
  match g with
  | Lex l => lexer_ok l
  | Doc | Ret _ | Never => True
  | Bind g f => good g /\ forall a, good (f a)
  | Alt g h => good g /\ good h
  | Opt g | Many g => good g
  | Sep _ sep g => lexer_ok sep /\ good g
  end.

(** A text spells tokens and ends with [z], which is not the start of anything. *)
Section Rest.
Variable z : text.
Hypothesis z_stops : stops z.
Hypothesis z_lex : forall l, lexer_ok l -> lex l z = None.
Hypothesis z_doc : tag (tx "///") (skip is_white z) = None.
Inductive spelt : list token -> text -> Prop :=
| spelt_end : forall b, blank b -> spelt [] (b ++ z)
| spelt_doc : forall d ts w s, Forall white w -> ~ In newline d -> spelt ts s -> spelt (DocLine d :: ts) (w ++ tx "///" ++ d ++ newline :: s)
| spelt_token : forall t ts b b' s, token_ok t -> blank b -> blank b' -> apart t (b' ++ s) -> spelt ts s ->
    spelt (t :: ts) (b ++ spelling t ++ b' ++ s).
Definition moved (s s' : text) (ts ts' : list token) : Prop :=
  s' = s /\ ts' = ts \/ List.length s' < List.length s /\ List.length ts' < List.length ts.
Definition agrees {A} (r : tres A) (o : option (A * text)) (ts : list token) (s : text) : Prop :=
  match r with
  | TSome a ts' => exists s', o = Some (a, s') /\ spelt ts' s' /\ moved s s' ts ts'
  | TNone => o = None
  | TInside => True
  end.

(** ** Terminals *)
Lemma first_solid : forall x w, token_ok (Chunk (x :: w)) -> solidb x = true /\ chunk (x :: w).
Proof.
  intros x w [_ F]. assert (C : chunk (x :: w)).
  { unfold chunk. apply forallb_forall. intros y I. rewrite Forall_forall in F. apply solid_is, F, I. }
  split; [apply chunk_cons in C; apply C | exact C].
Qed.
Lemma stops_char : forall x s, is_white x = false -> x <> "/"%char -> stops (x :: s).
Proof.
  intros x s Wx N. unfold stops, sp1, or_, line_comment, block_comment, while1, ch. cbn [tx list_ascii_of_string tag].
  destruct (Ascii.eqb_spec "/"%char x) as [E | _]; [congruence |]. rewrite Wx. reflexivity.
Qed.
Lemma stops_doc : forall s, stops (tx "///" ++ s).
Proof. intros s. reflexivity. Qed.
Lemma token_stops : forall t s, token_ok t -> stops (spelling t ++ s).
Proof.
  intros [w | c | q | d] s O; cbn [spelling].
  - destruct w as [| x w]; [destruct (proj1 O eq_refl) |]. apply first_solid in O. destruct O as [O _]. apply stops_char.
    + revert x O. bytes; (reflexivity || discriminate).
    + intros ->. discriminate O.
  - cbn in O. repeat (destruct O as [<- | O]; [apply stops_char; [reflexivity | discriminate] |]). contradiction.
  - apply stops_char; [reflexivity | discriminate].
  - destruct O.
Qed.
Lemma skip_white : forall w s, Forall white w -> skip is_white (w ++ s) = skip is_white s.
Proof.
  induction 1 as [| x w H F IH]; [reflexivity |]. cbn [app skip]. apply white_is in H. rewrite H. exact IH.
Qed.
Lemma white_blanks : forall w, Forall white w -> blank w.
Proof. induction 1; constructor; assumption. Qed.
Lemma blank_app : forall a b, blank a -> blank b -> blank (a ++ b).
Proof.
  induction 1 as [| x a H B IH | t a N S B IH | t a N B IH]; intros K; [exact K | | |].
  - cbn. constructor; auto.
  - rewrite <- !app_assoc. cbn [app]. apply blank_line; auto.
  - rewrite <- !app_assoc. apply blank_block; auto.
Qed.
(** After the blanks the tokens are the same. *)
Lemma spelt_sp : forall ts s, spelt ts s -> spelt ts (sp s) /\ (ts = [] -> sp s = z).
Proof.
  intros ts s H. destruct H as [b B | d ts w s F N H | t ts b b' s O B B' AP H].
  - rewrite (sp_blank b B z), sp_stops by exact z_stops. split; [exact (spelt_end [] blank_none) | reflexivity].
  - rewrite (sp_blank w (white_blanks w F)). rewrite sp_stops by apply stops_doc. split; [| discriminate].
    exact (spelt_doc d ts [] s (Forall_nil _) N H).
  - rewrite (sp_blank b B). rewrite sp_stops by (apply token_stops, O). split; [| discriminate].
    exact (spelt_token t ts [] b' s O blank_none B' AP H).
Qed.
Lemma spelt_rest : forall ts b s, blank b -> spelt ts s -> spelt ts (sp (b ++ s)).
Proof. intros ts b s B H. rewrite (sp_blank b B). apply spelt_sp, H. Qed.
Lemma until_quote_found : forall q s, ~ In quote q -> until_quote (q ++ quote :: s) = Some (q, s).
Proof.
  induction q as [| x q IH]; intros s N; [reflexivity |]. cbn [app until_quote]. unfold is_char.
  destruct (Ascii.eqb_spec quote x) as [<- | D]; [exfalso; apply N; now left |].
  unfold quote in D. destruct (Ascii.eqb_spec """"%char x) as [E | _]; [contradiction |]. rewrite IH; [reflexivity |]. intros I. apply N. now right.
Qed.
Lemma lex_slash : forall l s, lexer_ok l -> lex l ("/"%char :: s) = None.
Proof.
  intros l s O. destruct (of_chunk l) eqn:K; [apply lex_bound; [exact O | exact K | reflexivity] |].
  destruct l as [| c | | | | | |]; try discriminate K; cbn [lex value tag]; [| reflexivity].
  destruct O as (_ & _ & O & _). unfold value. cbn [tag]. destruct (Ascii.eqb_spec c "/"%char); [contradiction | reflexivity].
Qed.
Lemma lex_token : forall l t s, lexer_ok l -> token_ok t -> apart t s ->
  match tlex l [t] with
  | TSome v _ => lex l (spelling t ++ s) = Some (v, s)
  | TNone => lex l (spelling t ++ s) = None
  | TInside => True
  end.
Proof.
  intros l t s O T AP. destruct t as [w | c | q | d]; cbn [tlex spelling].
  - destruct w as [| x w]; [destruct (proj1 T eq_refl) |]. apply first_solid in T. destruct T as [X C].
    destruct (of_chunk l) eqn:K.
    + assert (B : bound s) by (destruct s as [| y s]; [exact I | apply solid_not, AP]).
      pose proof (lex_local l (x :: w) s O K C B) as E. destruct (lex l (x :: w)) as [[v [| y r]] |]; [exact E | exact I | exact E].
    + destruct l as [| c | | | | | |]; try discriminate K; cbn [lex].
      * unfold value. cbn [app tag]. destruct O as [O _]. destruct (Ascii.eqb_spec c x) as [<- | D]; [congruence | reflexivity].
      * cbn [app]. unfold is_char. destruct (Ascii.eqb_spec """"%char x) as [<- | D]; [discriminate X | reflexivity].
  - cbn [app]. assert (NQ : c <> quote /\ solidb c = false).
    { cbn in T. repeat (destruct T as [<- | T]; [split; [discriminate | reflexivity] |]). contradiction. }
    destruct (of_chunk l) eqn:K.
    + assert (Z : lex l (c :: s) = None) by (apply lex_bound; [exact O | exact K | apply NQ]).
      destruct l; try exact Z; discriminate K.
    + destruct l as [| c' | | | | | |]; try discriminate K; cbn [lex].
      * destruct (Ascii.eqb_spec c' c) as [-> | D]; unfold value; cbn [tag]; [rewrite Ascii.eqb_refl | destruct (Ascii.eqb_spec c' c); [contradiction | reflexivity]].
        unfold matched. cbn [List.length]. replace (S (List.length s) - List.length s) with 1 by lia. reflexivity.
      * unfold is_char. destruct (Ascii.eqb_spec """"%char c) as [<- | D]; [destruct NQ as [NQ _]; exfalso; apply NQ; reflexivity | reflexivity].
  - cbn [app]. destruct (of_chunk l) eqn:K.
    + assert (Z : lex l (quote :: (q ++ [quote]) ++ s) = None) by (apply lex_bound; [exact O | exact K | reflexivity]).
      destruct l; try exact Z; discriminate K.
    + destruct l as [| c' | | | | | |]; try discriminate K; cbn [lex].
      * unfold value. cbn [tag]. destruct O as (_ & _ & _ & O). destruct (Ascii.eqb_spec c' quote); [contradiction | reflexivity].
      * change (is_char """" quote) with true. cbv iota. rewrite <- app_assoc. apply until_quote_found, T.
  - destruct T.
Qed.
Lemma spelling_nonempty : forall t, token_ok t -> 0 < List.length (spelling t).
Proof.
  intros [w | c | q | d] O; cbn [spelling List.length]; try lia.
  - destruct w; [destruct (proj1 O eq_refl) | cbn; lia].
  - destruct O.
Qed.
Lemma lex_agrees : forall l ts s, lexer_ok l -> spelt ts s -> agrees (tlex l ts) (ws l s) ts s.
Proof.
  intros l ts s O H. unfold ws. destruct H as [b B | d ts w s F N H | t ts b b' s T B B' AP H].
  - destruct (spelt_sp [] (b ++ z) (spelt_end b B)) as [_ E]. rewrite (E eq_refl). cbn. rewrite z_lex by exact O. reflexivity.
  - rewrite (sp_blank w (white_blanks w F)). rewrite sp_stops by apply stops_doc. cbn [tlex agrees tx list_ascii_of_string app].
    rewrite lex_slash by exact O. reflexivity.
  - rewrite (sp_blank b B), sp_stops by (apply token_stops, T). pose proof (lex_token l t (b' ++ s) O T AP) as L.
    assert (R : tlex l (t :: ts) = match tlex l [t] with TSome v _ => TSome v ts | TNone => TNone | TInside => TInside end).
    { destruct t as [w | c | q | d]; cbn [tlex]; try reflexivity.
      - destruct (of_chunk l); [| reflexivity]. destruct (lex l w) as [[v [| y r]] |]; reflexivity.
      - destruct l; try reflexivity. destruct (Ascii.eqb c0 c); reflexivity.
      - destruct l; reflexivity. }
    rewrite R. destruct (tlex l [t]) as [v r | |]; cbn [agrees]; [| now rewrite L | exact I].
    rewrite L. eexists. split; [reflexivity |]. split; [apply spelt_rest; assumption |]. right.
    pose proof (sp_length (b' ++ s)). pose proof (spelling_nonempty t T). cbn [List.length]. rewrite !app_length in *. lia.
Qed.

(** ** Documentation *)
Lemma until_newline_found : forall d s, ~ In newline d -> until_newline (d ++ newline :: s) = Some (d, s).
Proof.
  induction d as [| x d IH]; intros s N; [reflexivity |]. cbn [app until_newline].
  destruct (Ascii.eqb_spec x newline) as [-> | D]; [exfalso; apply N; now left |]. rewrite IH; [reflexivity |]. intros I. apply N. now right.
Qed.
Lemma tag_slash : forall x s, x <> "/"%char -> tag (tx "///") (x :: s) = None.
Proof. intros x s N. cbn [tx list_ascii_of_string tag]. destruct (Ascii.eqb_spec "/"%char x); [congruence | reflexivity]. Qed.
Lemma skip_stop : forall x s, is_white x = false -> skip is_white (x :: s) = x :: s.
Proof. intros x s E. cbn [skip]. rewrite E. reflexivity. Qed.
Lemma doc_line_blank : forall b, blank b -> forall s, tag (tx "///") (skip is_white s) = None -> tag (tx "///") (skip is_white (b ++ s)) = None.
Proof.
  induction 1 as [| x b H B IH | t b N S B IH | t b N B IH]; intros s E; [exact E | | |].
  - cbn [app skip]. apply white_is in H. rewrite H. apply IH, E.
  - cbn [tx list_ascii_of_string app]. rewrite skip_stop by reflexivity. cbn [tag]. rewrite !Ascii.eqb_refl. cbv iota.
    rewrite <- app_assoc. destruct t as [| y t]; [reflexivity |]. cbn [app]. destruct (Ascii.eqb_spec "/"%char y) as [<- | D]; [| reflexivity].
    exfalso. exact (S t eq_refl).
  - cbn [tx list_ascii_of_string app]. rewrite skip_stop by reflexivity. reflexivity.
Qed.
Lemma token_no_doc : forall t s, token_ok t -> tag (tx "///") (skip is_white (spelling t ++ s)) = None.
Proof.
  intros [w | c | q | d] s O; cbn [spelling].
  - destruct w as [| x w]; [destruct (proj1 O eq_refl) |]. apply first_solid in O. destruct O as [O _]. cbn [app].
    rewrite skip_stop by (revert x O; bytes; (reflexivity || discriminate)). apply tag_slash. intros ->. discriminate O.
  - cbn [app]. cbn in O. repeat (destruct O as [<- | O]; [rewrite skip_stop by reflexivity; apply tag_slash; discriminate |]). contradiction.
  - cbn [app]. rewrite skip_stop by reflexivity. apply tag_slash. discriminate.
  - destruct O.
Qed.
Lemma doc_line_token : forall ts s, spelt ts s -> match ts with DocLine d :: ts' => exists r, doc_line s = Some (d, r) /\ spelt ts' r /\ List.length r < List.length s | _ => doc_line s = None end.
Proof.
  intros ts s H. unfold doc_line. destruct H as [b B | d ts w s F N H | t ts b b' s T B B' AP H].
  - rewrite (doc_line_blank b B z z_doc). reflexivity.
  - rewrite (skip_white w _ F). cbn [tx list_ascii_of_string app]. rewrite skip_stop by reflexivity. cbn [tag]. rewrite !Ascii.eqb_refl. cbv iota.
    rewrite until_newline_found by exact N. eexists. split; [reflexivity |]. split; [exact H |]. rewrite !app_length. cbn [List.length]. rewrite !app_length. cbn [List.length]. lia.
  - rewrite (doc_line_blank b B _ (token_no_doc t (b' ++ s) T)). destruct t; try reflexivity. destruct T.
Qed.
Lemma doc_loop_agrees : forall f ts s, List.length s <= f -> spelt ts s ->
  exists r, doc_loop f s = (fst (tdocs ts), r) /\ spelt (snd (tdocs ts)) r
    /\ (fst (tdocs ts) = [] /\ r = s /\ snd (tdocs ts) = ts \/ List.length r < List.length s /\ List.length (snd (tdocs ts)) < List.length ts).
Proof.
  induction f as [| f IH]; intros ts s L H.
  - pose proof (doc_line_token ts s H) as K. exists s. destruct ts as [| [w | c | q | d] ts]; cbn [tdocs fst snd doc_loop].
    1-4: split; [reflexivity |]; split; [exact H | left; auto].
    destruct K as (r & _ & _ & K). lia.
  - pose proof (doc_line_token ts s H) as K. cbn [doc_loop]. destruct ts as [| [w | c | q | d] ts].
    1-4: rewrite K; exists s; cbn [tdocs fst snd]; split; [reflexivity |]; split; [exact H | left; auto].
    destruct K as (r & E & H' & K). rewrite E. destruct (IH ts r ltac:(lia) H') as (r' & E' & H2 & D). rewrite E'.
    cbn [tdocs]. destruct (tdocs ts) as [l ts'] eqn:Q. cbn [fst snd] in *. exists r'. split; [reflexivity |]. split; [exact H2 |]. right.
    cbn [List.length]. destruct D as [(_ & -> & ->) | (D1 & D2)]; split; lia.
Qed.
Lemma doc_agrees : forall ts s, spelt ts s -> agrees (tdoc ts) (docstring s) ts s.
Proof.
  intros ts s H. unfold docstring, tdoc. destruct (doc_loop_agrees (List.length s) ts s (le_n _) H) as (r & E & H' & D). rewrite E.
  destruct (tdocs ts) as [[| d l] ts'] eqn:Q; cbn [fst snd] in *; cbn [agrees]; [reflexivity |].
  exists r. split; [reflexivity |]. split; [exact H' |]. destruct D as [(D & _) | D]; [discriminate D | right; exact D].
Qed.

(** ** Grammars *)
Lemma moved_trans : forall s1 s2 s3 t1 t2 t3, moved s1 s2 t1 t2 -> moved s2 s3 t2 t3 -> moved s1 s3 t1 t3.
Proof. unfold moved. intros s1 s2 s3 t1 t2 t3 [(-> & ->) | (A & B)] [(-> & ->) | (C & D)]; auto; right; lia. Qed.
Lemma many_agrees : forall A (q : list token -> tres A) (pq : text -> option (A * text)),
  (forall ts s, spelt ts s -> agrees (q ts) (pq s) ts s) ->
  forall f f' ts s, List.length s <= f -> spelt ts s -> agrees (tmany q f' ts) (many_loop pq f s) ts s.
Proof.
  intros A q pq Q. induction f as [| f IH]; intros f' ts s L H.
  - pose proof (Q ts s H) as K. destruct f' as [| f']; cbn [tmany many_loop]; (destruct (q ts) as [a ts' | |]; cbn [agrees] in K; [| rewrite K; exists s; split; [reflexivity |]; split; [exact H | left; auto] | exact I]);
      (destruct (List.length ts' =? List.length ts)%nat eqn:E; [exact I |]; apply Nat.eqb_neq in E; destruct K as (s' & _ & _ & [(_ & ->) | (K & _)]); [congruence | lia]).
  - pose proof (Q ts s H) as K. destruct f' as [| f']; cbn [tmany many_loop].
    + destruct (q ts) as [a ts' | |]; cbn [agrees] in K; [| rewrite K; exists s; split; [reflexivity |]; split; [exact H | left; auto] | exact I].
      destruct (List.length ts' =? List.length ts)%nat; exact I.
    + destruct (q ts) as [a ts' | |]; cbn [agrees] in K; [| rewrite K; exists s; split; [reflexivity |]; split; [exact H | left; auto] | exact I].
      destruct (List.length ts' =? List.length ts)%nat eqn:E; [exact I |]. apply Nat.eqb_neq in E.
      destruct K as (s' & -> & H' & M). pose proof M as M'. destruct M as [(_ & ->) | (M1 & M2)]; [congruence |].
      replace (List.length s' =? List.length s)%nat with false by (symmetry; apply Nat.eqb_neq; lia).
      pose proof (IH f' ts' s' ltac:(lia) H') as K. destruct (tmany q f' ts') as [l r | |]; cbn [agrees] in *; [| now rewrite K | exact I].
      destruct K as (s2 & -> & H2 & M). exists s2. split; [reflexivity |]. split; [exact H2 |]. exact (moved_trans _ _ _ _ _ _ M' M).
Qed.
Lemma tlex_shorter : forall l ts v r, tlex l ts = TSome v r -> List.length r < List.length ts.
Proof.
  intros l [| [w | c | q | d] ts] v r; cbn [tlex]; try discriminate.
  - destruct (of_chunk l); [| discriminate]. destruct (lex l w) as [[x [| y zz]] |]; try discriminate. intros E. injection E as <- <-. cbn. lia.
  - destruct l; try discriminate. destruct (Ascii.eqb c0 c); [| discriminate]. intros E. injection E as <- <-. cbn. lia.
  - destruct l; try discriminate. intros E. injection E as <- <-. cbn. lia.
Qed.
Lemma sep_agrees : forall A sep (q : list token -> tres A) (pq : text -> option (A * text)), lexer_ok sep ->
  (forall ts s, spelt ts s -> agrees (q ts) (pq s) ts s) ->
  forall f f' ts s, List.length s <= f -> spelt ts s -> agrees (tsep sep q f' ts) (sep_loop (ws sep) pq f s) ts s.
Proof.
  intros A sep q pq O Q. induction f as [| f IH]; intros f' ts s L H.
  - pose proof (lex_agrees sep ts s O H) as K. destruct f' as [| f']; cbn [tsep sep_loop].
    all: destruct (tlex sep ts) as [v ts1 | |] eqn:T; cbn [agrees] in K; [| rewrite K; exists s; split; [reflexivity |]; split; [exact H | left; auto] | exact I].
    all: destruct K as (s1 & _ & _ & M); pose proof (tlex_shorter _ _ _ _ T); destruct M as [(_ & ->) | (M & _)]; lia.
  - pose proof (lex_agrees sep ts s O H) as K. destruct f' as [| f']; cbn [tsep sep_loop].
    all: destruct (tlex sep ts) as [v ts1 | |] eqn:T; cbn [agrees] in K; [| rewrite K; exists s; split; [reflexivity |]; split; [exact H | left; auto] | exact I].
    all: destruct K as (s1 & -> & H1 & M); pose proof (tlex_shorter _ _ _ _ T) as TL; destruct M as [(_ & ->) | (M1 & M2)]; [lia |].
    all: replace (List.length s1 =? List.length s)%nat with false by (symmetry; apply Nat.eqb_neq; lia).
    all: pose proof (Q ts1 s1 H1) as K; destruct (q ts1) as [a ts2 | |]; cbn [agrees] in K; [| rewrite K; exists s; split; [reflexivity |]; split; [exact H | left; auto] | exact I].
    + exact I.
    + destruct K as (s2 & -> & H2 & M). assert (M' : moved s s2 ts ts2) by (apply (moved_trans s s1 s2 ts ts1 ts2); [right; auto | exact M]).
      assert (L2 : List.length s2 <= f) by (destruct M as [(-> & _) | (M & _)]; lia).
      pose proof (IH f' ts2 s2 L2 H2) as K. destruct (tsep sep q f' ts2) as [l r | |]; cbn [agrees] in *; [| now rewrite K | exact I].
      destruct K as (s3 & -> & H3 & M3). exists s3. split; [reflexivity |]. split; [exact H3 |]. exact (moved_trans _ _ _ _ _ _ M' M3).
Qed.
Lemma run_agrees : forall A (g : G A), good g -> forall ts s, spelt ts s -> agrees (trun g ts) (run g s) ts s.
Proof.
  intros A g. induction g as [l | | A a | A B g IHg f IHf | A | A g IHg h IHh | A g IHg | A g IHg | A one sep g IHg]; cbn [good trun run]; intros O ts s H.
  - apply lex_agrees; assumption.
  - apply doc_agrees, H.
  - exists s. split; [reflexivity |]. split; [exact H | left; auto].
  - destruct O as [O1 O2]. specialize (IHg O1 ts s H). destruct (trun g ts) as [a ts' | |]; cbn [agrees] in IHg; [| now rewrite IHg | exact I].
    destruct IHg as (s' & -> & H' & M). specialize (IHf a (O2 a) ts' s' H'). destruct (trun (f a) ts') as [b ts2 | |]; cbn [agrees] in *; auto.
    destruct IHf as (s2 & -> & H2 & M2). exists s2. split; [reflexivity |]. split; [exact H2 |]. exact (moved_trans _ _ _ _ _ _ M M2).
  - reflexivity.
  - destruct O as [O1 O2]. specialize (IHg O1 ts s H). destruct (trun g ts) as [a ts' | |]; cbn [agrees] in IHg; [| rewrite IHg; apply IHh; assumption | exact I].
    destruct IHg as (s' & -> & H' & M). exists s'. auto.
  - specialize (IHg O ts s H). destruct (trun g ts) as [a ts' | |]; cbn [agrees] in IHg; [| rewrite IHg; exists s; split; [reflexivity |]; split; [exact H | left; auto] | exact I].
    destruct IHg as (s' & -> & H' & M). exists s'. auto.
  - apply many_agrees; [intros; apply IHg; assumption | lia | exact H].
  - destruct O as [O1 O2]. pose proof (IHg O2 ts s H) as K. destruct (trun g ts) as [a ts' | |]; cbn [agrees] in K.
    + destruct K as (s' & -> & H' & M). pose proof (sep_agrees A sep (trun g) (run g) O1 (fun ts s => IHg O2 ts s) (List.length s') (List.length ts') ts' s' (le_n _) H') as K.
      destruct (tsep sep (trun g) (List.length ts') ts') as [l r | |]; cbn [agrees] in *; [| now rewrite K | exact I].
      destruct K as (s2 & -> & H2 & M2). exists s2. split; [reflexivity |]. split; [exact H2 |]. exact (moved_trans _ _ _ _ _ _ M M2).
    + rewrite K. destruct one; [reflexivity |]. exists s. split; [reflexivity |]. split; [exact H | left; auto].
    + exact I.
Qed.
End Rest.
Arguments agrees z {A} r o ts s.

Lemma lex_length : forall ts s, spells ts s -> List.length ts <= List.length s.
Proof.
  induction 1 as [b B | d ts w s F N H IH | t ts b b' s T B B' AP H IH]; [cbn; lia | |].
  - rewrite !app_length. cbn [List.length]. lia.
  - pose proof (spelling_nonempty t T). rewrite !app_length. cbn [List.length]. lia.
Qed.
Lemma spells_nothing : forall ts s, spells ts s -> spelt [] ts s.
Proof.
  induction 1 as [b B | d ts w s F N H IH | t ts b b' s T B B' AP H IH].
  - rewrite <- (app_nil_r b). apply spelt_end, B.
  - apply spelt_doc; assumption.
  - apply spelt_token; assumption.
Qed.
Lemma spells_slash : forall z ts s, spells ts s -> spelt ("/"%char :: z) ts (s ++ "/"%char :: z).
Proof.
  intros z. induction 1 as [b B | d ts w s F N H IH | t ts b b' s T B B' AP H IH].
  - apply spelt_end, B.
  - rewrite <- !app_assoc. cbn [app]. apply spelt_doc; assumption.
  - rewrite <- !app_assoc. apply spelt_token; try assumption. destruct t; try exact I. unfold apart in *. rewrite app_assoc.
    destruct (b' ++ s) as [| x u]; [| exact AP]. cbn [app]. apply solid_not. reflexivity.
Qed.
