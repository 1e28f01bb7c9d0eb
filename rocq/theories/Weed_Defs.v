(** Grammars give back what was written: lists, attributes, members and definitions. *)
From Verif Require Import Weed_Model Weed_Spec Weed_Tokens Weed_Refine Weed_Words Weed_Round.

(** ** Lists *)
Lemma trun_lexp : forall c ts, trun (Lex (LPunct (match c with String a _ => a | EmptyString => zero end))) ts = trun (p c) ts.
Proof. reflexivity. Qed.
Lemma commas_cons : forall A (f : A -> list token) a l, commas f (a :: l) = f a ++ flat_map (fun b => P "," :: f b) l.
Proof.
  intros A f a l. revert a. induction l as [| b l IH]; intros a; [cbn; now rewrite app_nil_r |].
  change (commas f (a :: b :: l)) with (f a ++ P "," :: commas f (b :: l)). rewrite IH. reflexivity.
Qed.
Section Lists.
  Context {A : Type} (f : A -> list token) (g : G A) (r : list token).
  Hypothesis R : no "," r.
  Variable ok : A -> Prop.
  Hypothesis Q : forall a r', ok a -> r' = r \/ (exists r2, r' = P "," :: r2) -> trun g (f a ++ r') = TSome a r'.
  Lemma tsep_round : forall l fuel, Forall ok l -> List.length l <= fuel ->
    tsep (LPunct ","%char) (trun g) fuel (flat_map (fun b => P "," :: f b) l ++ r) = TSome l r.
  Proof.
    induction l as [| a l IH]; intros fuel F L.
    - pose proof (p_none _ _ R) as N. cbn [flat_map app]. destruct fuel; cbn [tsep]; change (tlex (LPunct ","%char) r) with (trun (p ",") r); rewrite N; reflexivity.
    - inversion F as [| ? ? Oa Fl]; subst. destruct fuel as [| fuel]; [cbn in L; lia |]. cbn [flat_map app tsep].
      change (tlex (LPunct ","%char) (P "," :: ?x)) with (TSome [","%char] x). cbv iota beta. rewrite <- app_assoc. rewrite Q.
      + rewrite IH; [reflexivity | exact Fl | cbn in L; lia].
      + exact Oa.
      + destruct l as [| b l]; [left; reflexivity | right; eexists; reflexivity].
  Qed.
  Lemma sep_round : forall one l, Forall ok l -> (l = [] -> one = false /\ trun g r = TNone) -> trun (Sep one (LPunct ","%char) g) (commas f l ++ r) = TSome l r.
  Proof.
    intros one [| a l] F N.
    - destruct (N eq_refl) as [-> E]. cbn [commas app trun]. rewrite E. reflexivity.
    - inversion F as [| ? ? Oa Fl]; subst. rewrite commas_cons, <- app_assoc. cbn [trun]. rewrite Q.
      + rewrite tsep_round; [reflexivity | exact Fl |]. rewrite app_length.
        assert (K : List.length l <= List.length (flat_map (fun b => P "," :: f b) l)); [| lia].
        clear. induction l as [| a l IH]; [cbn; lia |]. cbn [flat_map List.length]. rewrite app_length. cbn [List.length]. lia.
      + exact Oa.
      + destruct l as [| b l]; [left; reflexivity | right; eexists; reflexivity].
  Qed.
End Lists.
Lemma many_round : forall A (f : A -> list token) (g : G A) (ok : A -> Prop) r, (forall a r', ok a -> trun g (f a ++ r') = TSome a r') -> (forall a, f a <> []) ->
  trun g r = TNone -> forall l, Forall ok l -> trun (Many g) (flat_map f l ++ r) = TSome l r.
Proof.
  intros A f g ok r Q NE N l F. cbn [trun].
  assert (H : forall fuel, List.length l <= fuel -> tmany (trun g) fuel (flat_map f l ++ r) = TSome l r).
  { induction F as [| a l Oa F IH]; intros fuel L.
    - cbn [flat_map app]. destruct fuel; cbn [tmany]; rewrite N; reflexivity.
    - destruct fuel as [| fuel]; [cbn in L; lia |]. cbn [flat_map tmany]. rewrite <- app_assoc, Q by exact Oa.
      replace (_ =? _)%nat with false.
      + rewrite IH; [reflexivity | cbn in L; lia].
      + symmetry. apply Nat.eqb_neq. rewrite (app_length (f a)). specialize (NE a). destruct (f a); [congruence | cbn; lia]. }
  apply H. rewrite app_length. assert (K : List.length l <= List.length (flat_map f l)); [| lia].
  clear -NE. induction l as [| a l IH]; [cbn; lia |]. cbn [flat_map List.length]. rewrite app_length. specialize (NE a). destruct (f a); [congruence | cbn; lia].
Qed.
Lemma commas_in : forall A (f : A -> list token) l a, In a l -> List.length (f a) <= List.length (commas f l).
Proof.
  intros A f l a I. destruct l as [| b l]; [contradiction |]. rewrite commas_cons, app_length. destruct I as [<- | I]; [lia |].
  assert (K : List.length (f a) <= List.length (flat_map (fun b => P "," :: f b) l)); [| lia].
  induction l as [| x l IH]; [contradiction |]. cbn [flat_map]. rewrite app_length. cbn [List.length]. destruct I as [<- | I]; [lia |]. specialize (IH I). lia.
Qed.
Lemma flat_in : forall A (f : A -> list token) l a, In a l -> List.length (f a) <= List.length (flat_map f l).
Proof. intros A f l a I. induction l as [| x l IH]; [contradiction |]. cbn [flat_map]. rewrite app_length. destruct I as [<- | I]; [lia |]. specialize (IH I). lia. Qed.

(** ** Attributes *)
Ltac nop := first [assumption | apply no_P; reflexivity | apply no_chunk | apply no_nil].
Lemma attr_round : forall a r, attr_ok a -> no "=" r -> trun attr_g (attr_tokens a ++ r) = TSome a r.
Proof.
  intros [w | w v | w s | w l] r O N; unfold attr_g; cbn [attr_tokens app attr_ok] in *.
  - rewrite !trun_cons, !trun_bind, !tident_plain by exact O. rewrite !trun_bind, !(p_none _ _ N). reflexivity.
  - destruct O as [O O']. rewrite !trun_cons, !trun_bind, !tident_plain by exact O. rewrite !trun_bind, !tpP. rewrite !trun_bind.
    rewrite (p_none "(") by nop. rewrite trun_alt, trun_bind, tident_plain by exact O'. reflexivity.
  - destruct O as [O O']. rewrite !trun_cons, !trun_bind, !tident_plain by exact O. rewrite !trun_bind, !tpP. reflexivity.
  - destruct O as [O O']. rewrite !trun_cons, !trun_bind, !tident_plain by exact O. rewrite !trun_bind, !tpP. rewrite trun_bind, tpP, trun_bind.
    rewrite <- app_assoc. rewrite (sep_round (fun v => [Chunk v]) ident ([P ")"] ++ r) ltac:(nop) name_ok); [reflexivity | | exact O' | intros _; split; reflexivity].
    intros v r' Ov _. apply tident_plain, Ov.
Qed.
Lemma attrs_round : forall o r, attrs_ok o -> (o = None -> no "[" r) -> trun attrs_g (attrs_tokens o ++ r) = TSome o r.
Proof.
  intros [l |] r O N; unfold attrs_g; rewrite trun_opt, trun_bind.
  - cbn [attrs_tokens opt app]. rewrite tpP, trun_bind, <- app_assoc.
    rewrite (sep_round attr_tokens attr_g ([P "]"] ++ r) ltac:(nop) attr_ok); [reflexivity | | exact (O l eq_refl) | intros _; split; reflexivity].
    intros a r' Oa [-> | (r2 & ->)]; apply attr_round; try exact Oa; nop.
  - cbn [attrs_tokens opt app]. rewrite (p_none _ _ (N eq_refl)). reflexivity.
Qed.
Lemma default_round : forall o r, default_ok o -> no "=" r -> trun (Opt default_g) (default_tokens o ++ r) = TSome o r.
Proof.
  intros [v |] r O N; unfold default_g; rewrite trun_opt, trun_bind.
  - cbn [default_tokens opt app]. rewrite tpP, lit_round by exact (O v eq_refl). reflexivity.
  - cbn [default_tokens opt app]. rewrite (p_none _ _ N). reflexivity.
Qed.

(** ** Documentation *)
Lemma lines_join : forall s, lines s <> [] /\ join (lines s) = s.
Proof.
  induction s as [| x s [N E]]; [split; [discriminate | reflexivity] |]. cbn [lines]. destruct (ascii_dec x newline) as [-> | D].
  - split; [discriminate |]. destruct (lines s) as [| l ls]; [congruence |]. cbn [join app] in *. congruence.
  - destruct (lines s) as [| l ls]; [congruence |]. split; [discriminate |]. destruct ls; cbn [join app] in *; congruence.
Qed.
Definition no_doc (r : list token) : Prop := forall d r', r <> DocLine d :: r'.
Lemma tdocs_round : forall l r, no_doc r -> tdocs (map DocLine l ++ r) = (l, r).
Proof.
  induction l as [| x l IH]; intros r N.
  - cbn [map app]. destruct r as [| [w | c | q | d] r]; try reflexivity. exfalso. exact (N d r eq_refl).
  - cbn [map app tdocs]. rewrite IH by exact N. reflexivity.
Qed.
Lemma doc_round : forall o r, no_doc r -> trun (Opt Doc) (doc_tokens o ++ r) = TSome o r.
Proof.
  intros [d |] r N; rewrite trun_opt; cbn [trun doc_tokens opt]; unfold tdoc.
  - rewrite tdocs_round by exact N. destruct (lines_join d) as [NE E]. destruct (lines d); [congruence |]. rewrite E. reflexivity.
  - pose proof (tdocs_round [] r N) as E. cbn [map app] in *. rewrite E. reflexivity.
Qed.
Lemma no_doc_chunk : forall w r, no_doc (Chunk w :: r). Proof. intros w r d r' E. discriminate E. Qed.
Lemma no_doc_P : forall c r, no_doc (P c :: r). Proof. intros w r d r' E. discriminate E. Qed.
(** What comes after attributes. *)
Definition plain (r : list token) : Prop := no "[" r /\ no_doc r.
Lemma plain_W : forall s r, plain (W s :: r). Proof. intros. split; [apply no_chunk | apply no_doc_chunk]. Qed.
Lemma plain_type : forall t r, type_ok t -> plain (type_tokens t ++ r).
Proof. intros t r O. destruct (type_head t O) as (w & r' & -> & _). split; [apply no_chunk | apply no_doc_chunk]. Qed.
Lemma plain_return : forall o r, return_ok o -> plain (return_tokens o ++ r).
Proof. intros [t |] r O; [apply plain_type, O; reflexivity | apply plain_W]. Qed.
Lemma attrs_no_doc : forall o r, no_doc r -> no_doc (attrs_tokens o ++ r).
Proof. intros [l |] r N; [apply no_doc_P | exact N]. Qed.
Lemma attrs_plain : forall o r, attrs_ok o -> plain r -> trun attrs_g (attrs_tokens o ++ r) = TSome o r.
Proof. intros o r O [N _]. apply attrs_round; auto. Qed.
Lemma docs_attrs : forall A (f : option text -> option (list attr) -> G A) c o r, attrs_ok o -> plain r ->
  trun (x <- Opt Doc ;; a <- attrs_g ;; f x a) (doc_tokens c ++ attrs_tokens o ++ r) = trun (f c o) r.
Proof.
  intros A f c o r O N. rewrite trun_bind, doc_round by (apply attrs_no_doc, N). rewrite trun_bind, attrs_plain by assumption. reflexivity.
Qed.
Lemma return_miss : forall s o r, In s others -> s <> "undefined" -> return_ok o -> trun (k s) (return_tokens o ++ r) = TNone.
Proof.
  intros s [t |] r I N O; [apply type_miss; [exact I | apply O; reflexivity] |]. cbn [return_tokens app]. rewrite tkW by reflexivity.
  rewrite eqt_neq; [reflexivity |]. intros E. apply tx_inj in E. contradiction.
Qed.

(** ** Members *)
Lemma given_flag : forall b s r, wordt (tx s) -> trun (k s) r = TNone -> trun (given (k s)) (flag b (W s) ++ r) = TSome b r.
Proof.
  intros [|] s r Ws N; rewrite trun_given; cbn [flag app]; [| rewrite N; reflexivity]. rewrite tkW, eqt_refl by exact Ws. reflexivity.
Qed.
Lemma type_then_name : forall d t w r, type_ok t -> name_ok w -> List.length (type_tokens t) <= d -> trun (type_g d) (type_tokens t ++ name w :: r) = TSome t (name w :: r).
Proof. intros d t w r O Ow L. apply type_round; [exact O | exact L | apply follow_name, Ow]. Qed.
Lemma arg_round : forall d a r, arg_ok a -> List.length (arg_tokens a) <= d -> no "=" r -> trun (arg_g d) (arg_tokens a ++ r) = TSome a r.
Proof.
  intros d [a o b t w v] r (Oa & Ob & Ot & Ow & Ov & C) L N. unfold arg_tokens, arg_g in *. cbn [g_attrs g_optional g_tattrs g_type g_name g_default] in *.
  rewrite !app_length in L. rewrite <- !app_assoc. cbn [app]. rewrite trun_bind, attrs_round; [| exact Oa |].
  - rewrite trun_bind, given_flag; [| reflexivity |].
    + rewrite trun_bind, attrs_plain by (try exact Ob; apply plain_type, Ot). rewrite trun_bind, type_then_name by (try assumption; lia).
      rewrite trun_bind, tident by exact Ow. rewrite trun_bind. destruct o.
      * rewrite default_round by assumption. reflexivity.
      * destruct C as [C | (-> & _)]; [discriminate C | reflexivity].
    + destruct b as [l |]; [reflexivity |]. apply type_miss; [cbn; tauto | exact Ot].
  - intros ->. destruct o; [apply no_chunk |]. destruct C as [C | (_ & C)]; [discriminate C |]. rewrite (C eq_refl). cbn [attrs_tokens opt flag app]. apply plain_type, Ot.
Qed.
Lemma nonany_punct : forall d c r, trun (nonany_g d) (P c :: r) = TNone.
Proof. intros [| d] c r; reflexivity. Qed.
Lemma type_punct : forall d c r, trun (type_g d) (P c :: r) = TNone.
Proof. intros d c r. unfold type_g. rewrite trun_alt, nonany_punct. reflexivity. Qed.
Lemma arg_none : forall d r, trun (arg_g d) (P ")" :: r) = TNone.
Proof. intros d r. unfold arg_g. rewrite trun_bind. change (trun attrs_g (P ")" :: r)) with (TSome (@None (list attr)) (P ")" :: r)). tw.
  change (trun attrs_g (P ")" :: r)) with (TSome (@None (list attr)) (P ")" :: r)). cbv iota beta. rewrite trun_bind, type_punct. reflexivity. Qed.
Lemma args_round : forall d l r, Forall arg_ok l -> List.length (args_tokens l) <= d -> trun (args_g d) (args_tokens l ++ r) = TSome l r.
Proof.
  intros d l r F L. unfold args_g, args_tokens in *. cbn [app List.length] in *. rewrite app_length in L. rewrite trun_bind, tpP, trun_bind, <- app_assoc.
  rewrite (sep_round arg_tokens (arg_g d) ([P ")"] ++ r) ltac:(nop) (fun a => arg_ok a /\ In a l)).
  - cbn [app]. rewrite trun_bind, tpP. reflexivity.
  - intros a r' [Oa I] H. apply arg_round; [exact Oa | | destruct H as [-> | (r2 & ->)]; nop]. pose proof (commas_in _ arg_tokens l a I). lia.
  - rewrite Forall_forall in *. auto.
  - intros _. split; [reflexivity | apply arg_none].
Qed.
Lemma field_round : forall d f r, field_ok f -> List.length (field_tokens f) <= d -> trun (field_g d) (field_tokens f ++ r) = TSome f r.
Proof.
  intros d [c a q t w v] r (Oa & Ot & Ow & Ov) L. unfold field_tokens, field_g in *. cbn [f_doc f_attrs f_required f_type f_name f_default] in *.
  rewrite !app_length in L. rewrite <- !app_assoc. cbn [app]. rewrite <- app_assoc. rewrite docs_attrs; [| exact Oa |].
  - rewrite trun_bind, given_flag; [| reflexivity | apply type_miss; [cbn; tauto | exact Ot]].
    rewrite trun_bind, type_then_name by (try assumption; lia). rewrite trun_bind, tident by exact Ow. rewrite trun_bind, default_round by (try exact Ov; nop). reflexivity.
  - destruct q; [apply plain_W | apply plain_type, Ot].
Qed.
Lemma args_follow : forall l r, follow (args_tokens l ++ r).
Proof. intros l r. apply follow_P; reflexivity. Qed.
Lemma opt_name_follow : forall o r, op_name_ok o -> follow r -> follow (opt (fun w => [name w]) o ++ r).
Proof. intros [w |] r O F; [apply follow_name, O; reflexivity | exact F]. Qed.
Lemma opt_name_round : forall o l r, op_name_ok o -> trun (Opt ident) (opt (fun w => [name w]) o ++ args_tokens l ++ r) = TSome o (args_tokens l ++ r).
Proof. intros [w |] l r O; rewrite trun_opt; [cbn [opt app]; rewrite tident by (apply O; reflexivity); reflexivity | reflexivity]. Qed.
Lemma one_of_none : forall l r, (forall s, In s l -> trun (k s) r = TNone) -> trun (one_of l) r = TSome [] r.
Proof.
  intros l r H. unfold one_of. rewrite trun_bind, trun_opt.
  assert (E : trun (alts (map (fun s => k s ;;; Ret s) l)) r = TNone); [| rewrite E; reflexivity].
  induction l as [| s l IH]; [reflexivity |]. cbn [map]. rewrite trun_cons, bind_none by (apply H; now left). apply IH. intros s' I. apply H. now right.
Qed.
Lemma operation_round : forall sp d c a o w l r, attrs_ok a -> return_ok o -> op_name_ok w -> Forall arg_ok l ->
  List.length (member_tokens (Operation c a [] o w l)) <= d ->
  trun (operation_g sp d) (member_tokens (Operation c a [] o w l) ++ r) = TSome (Operation c a [] o w l) r.
Proof.
  intros sp d c a o w l r Oa Oo Ow Ol L. unfold operation_g. cbn [member_tokens] in *. rewrite !app_length in L. rewrite <- !app_assoc.
  rewrite docs_attrs by (try exact Oa; apply plain_return, Oo). rewrite trun_bind.
  set (ts := return_tokens o ++ _).
  assert (E : trun (if sp then y <- one_of ["stringifier"; "static"] ;; z <- one_of ["getter"; "setter"; "deleter"; "legacycaller"] ;; Ret (y ++ z) else Ret []) ts = TSome [] ts).
  { destruct sp; [| reflexivity]. rewrite trun_bind, one_of_none.
    - rewrite trun_bind, one_of_none; [reflexivity |]. intros s I. apply return_miss; [| | exact Oo]; cbn in I; repeat (destruct I as [<- | I]; [(cbn; tauto) || discriminate |]); contradiction.
    - intros s I. apply return_miss; [| | exact Oo]; cbn in I; repeat (destruct I as [<- | I]; [(cbn; tauto) || discriminate |]); contradiction. }
  rewrite E. unfold ts. rewrite trun_bind, return_round; [| exact Oo | lia | apply opt_name_follow; [exact Ow | apply args_follow]].
  rewrite trun_bind, opt_name_round by exact Ow. rewrite trun_bind, args_round; [reflexivity | exact Ol | lia].
Qed.
Lemma constructor_miss : forall d c a o w l r, attrs_ok a -> return_ok o -> trun (constructor_g d) (member_tokens (Operation c a [] o w l) ++ r) = TNone.
Proof.
  intros d c a o w l r Oa Oo. unfold constructor_g. cbn [member_tokens]. rewrite <- !app_assoc. rewrite docs_attrs by (try exact Oa; apply plain_return, Oo).
  apply bind_none, return_miss; [cbn; tauto | discriminate | exact Oo].
Qed.
Lemma constructor_round : forall d c a l r, attrs_ok a -> Forall arg_ok l -> List.length (member_tokens (Constructor c a l)) <= d ->
  trun (constructor_g d) (member_tokens (Constructor c a l) ++ r) = TSome (Constructor c a l) r.
Proof.
  intros d c a l r Oa Ol L. unfold constructor_g. cbn [member_tokens] in *. rewrite !app_length in L. cbn [List.length] in L. rewrite app_length in L.
  rewrite <- !app_assoc. cbn [app]. rewrite <- app_assoc. rewrite docs_attrs by (try exact Oa; apply plain_W). rewrite trun_bind, tkW by reflexivity. eqts.
  rewrite trun_bind, args_round; [reflexivity | exact Ol | lia].
Qed.
Lemma member_round : forall d m r, member_ok m -> List.length (member_tokens m) <= d ->
  trun (Alt (constructor_g d) (operation_g true d)) (member_tokens m ++ r) = TSome m r.
Proof.
  intros d [c a l | c a x o w l] r O L; rewrite trun_alt.
  - destruct O as [Oa Ol]. rewrite constructor_round by assumption. reflexivity.
  - destruct O as (Oa & -> & Oo & Ow & Ol). rewrite constructor_miss by assumption. apply operation_round; assumption.
Qed.
Lemma member_nonempty : forall m, member_tokens m <> [].
Proof.
  intros [c a l | c a x o w l] E; apply (f_equal (@List.length _)) in E; cbn [member_tokens] in E; unfold args_tokens in E; rewrite !app_length in E; cbn in E; try lia;
    rewrite ?app_length in E; cbn in E; lia.
Qed.
Lemma field_nonempty : forall f, field_tokens f <> [].
Proof. intros f E. apply (f_equal (@List.length _)) in E. unfold field_tokens in E. rewrite !app_length in E. cbn in E. lia. Qed.
Lemma brace_docs : forall A (f : option text -> option (list attr) -> G A) r, trun (x <- Opt Doc ;; a <- attrs_g ;; f x a) (P "}" :: r) = trun (f None None) (P "}" :: r).
Proof. reflexivity. Qed.
Lemma return_punct : forall d c r, trun (return_g d) (P c :: r) = TNone.
Proof. intros d c r. unfold return_g. rewrite trun_alt, (trun_bind _ _ (type_g d)), type_punct. reflexivity. Qed.
Lemma operation_none : forall sp d r, trun (operation_g sp d) (P "}" :: r) = TNone.
Proof.
  intros sp d r. unfold operation_g. rewrite brace_docs, trun_bind. destruct sp.
  - replace (trun _ (P "}" :: r)) with (TSome (@nil string) (P "}" :: r)) by reflexivity. apply bind_none, return_punct.
  - rewrite trun_ret. apply bind_none, return_punct.
Qed.
Lemma member_none : forall d r, trun (Alt (constructor_g d) (operation_g true d)) (P "}" :: r) = TNone.
Proof. intros d r. rewrite trun_alt, operation_none. reflexivity. Qed.
Lemma field_none : forall d r, trun (field_g d) (P "}" :: r) = TNone.
Proof. intros d r. unfold field_g. rewrite brace_docs. tw. rewrite type_punct. reflexivity. Qed.
Lemma braced_round : forall A (g : G A) ts a r, (forall r', trun g (ts ++ P "}" :: r') = TSome a (P "}" :: r')) -> trun (braced g) (braces ts ++ r) = TSome a r.
Proof. intros A g ts a r H. unfold braced, braces. cbn [app]. rewrite <- app_assoc. cbn [app]. rewrite trun_bind, tpP, trun_bind, H. tw. reflexivity. Qed.
Lemma members_round : forall d l r, Forall member_ok l -> List.length (flat_map member_tokens l) <= d -> trun (braced (members_g d)) (braces (flat_map member_tokens l) ++ r) = TSome l r.
Proof.
  intros d l r F L. apply braced_round. intros r'. unfold members_g.
  apply (many_round _ _ _ (fun m => member_ok m /\ List.length (member_tokens m) <= d)).
  - intros m r2 [O Lm]. apply member_round; assumption.
  - apply member_nonempty.
  - apply member_none.
  - rewrite Forall_forall in *. intros m I. split; [apply F, I |]. pose proof (flat_in _ member_tokens l m I). lia.
Qed.
Lemma operations_round : forall d l r, Forall (fun m => member_ok m /\ is_operation m) l -> List.length (flat_map member_tokens l) <= d ->
  trun (braced (Many (operation_g false d))) (braces (flat_map member_tokens l) ++ r) = TSome l r.
Proof.
  intros d l r F L. apply braced_round. intros r'.
  apply (many_round _ _ _ (fun m => (member_ok m /\ is_operation m) /\ List.length (member_tokens m) <= d)).
  - intros [c a q | c a x o w q] r2 [[O S] Lm]; [contradiction |]. destruct O as (Oa & -> & Oo & Ow & Ol). apply operation_round; assumption.
  - apply member_nonempty.
  - apply operation_none.
  - rewrite Forall_forall in *. intros m I. split; [apply F, I |]. pose proof (flat_in _ member_tokens l m I). lia.
Qed.
Lemma fields_round : forall d l r, Forall field_ok l -> List.length (flat_map field_tokens l) <= d -> trun (braced (Many (field_g d))) (braces (flat_map field_tokens l) ++ r) = TSome l r.
Proof.
  intros d l r F L. apply braced_round. intros r'.
  apply (many_round _ _ _ (fun m => field_ok m /\ List.length (field_tokens m) <= d)).
  - intros m r2 [O Lm]. apply field_round; assumption.
  - apply field_nonempty.
  - apply field_none.
  - rewrite Forall_forall in *. intros m I. split; [apply F, I |]. pose proof (flat_in _ field_tokens l m I). lia.
Qed.
Lemma variants_round : forall l r, l <> [] -> trun (braced variants_g) (braces (commas variant_tokens l) ++ r) = TSome l r.
Proof.
  intros l r N. apply braced_round. intros r'. unfold variants_g. rewrite trun_bind.
  rewrite (sep_round variant_tokens _ (P "}" :: r') ltac:(nop) (fun _ => True)).
  - reflexivity.
  - intros [c s] r2 _ _. unfold variant_tokens. cbn [fst snd]. rewrite <- app_assoc. rewrite trun_bind, doc_round by (intros d x E; discriminate E). reflexivity.
  - apply Forall_forall. auto.
  - intros E. contradiction.
Qed.

(** ** Definitions *)
Lemma parent_round : forall o ts r, op_name_ok o -> trun parent_g (parent_tokens o ++ braces ts ++ r) = TSome o (braces ts ++ r).
Proof.
  intros [w |] ts r O; unfold parent_g; rewrite trun_opt; [| reflexivity]. cbn [parent_tokens opt app]. rewrite trun_bind, tpP, tident by (apply O; reflexivity). reflexivity.
Qed.
Definition callback_g d : G def := a <- attrs_g ;; k "callback" ;;; w <- ident ;; p "=" ;;; r <- return_g d ;; l <- args_g d ;; p ";" ;;; Ret (DCallback a w r l).
Definition cbi_g d : G def := c <- Opt Doc ;; a <- attrs_g ;; k "callback" ;;; k "interface" ;;; w <- ident ;; i <- parent_g ;; l <- braced (members_g d) ;; Ret (DCallbackInterface c a w i l).
Definition interface_g d : G def := c <- Opt Doc ;; a <- attrs_g ;; k "interface" ;;; w <- ident ;; i <- parent_g ;; l <- braced (members_g d) ;; Ret (DInterface c a w i l).
Definition namespace_g d : G def := c <- Opt Doc ;; a <- attrs_g ;; k "namespace" ;;; w <- ident ;; l <- braced (Many (operation_g false d)) ;; Ret (DNamespace c a w l).
Definition dictionary_g d : G def := c <- Opt Doc ;; a <- attrs_g ;; k "dictionary" ;;; w <- ident ;; i <- parent_g ;; l <- braced (Many (field_g d)) ;; Ret (DDictionary c a w i l).
Definition enum_g : G def := c <- Opt Doc ;; a <- attrs_g ;; k "enum" ;;; w <- ident ;; l <- braced variants_g ;; Ret (DEnum c a w l).
Definition typedef_g d : G def := a <- attrs_g ;; k "typedef" ;;; b <- attrs_g ;; t <- type_g d ;; w <- ident ;; p ";" ;;; Ret (DTypedef a b t w).
Lemma def_step : forall d, def_g d = alts [callback_g d; cbi_g d; interface_g d; namespace_g d; dictionary_g d; enum_g; typedef_g d].
Proof. reflexivity. Qed.
Lemma no_docs_attrs : forall A (f : option text -> option (list attr) -> G A) o r, attrs_ok o -> plain r ->
  trun (x <- Opt Doc ;; a <- attrs_g ;; f x a) (attrs_tokens o ++ r) = trun (f None o) r.
Proof. intros A f o r O N. exact (docs_attrs A f None o r O N). Qed.
(** A definition that starts with another word. *)
Lemma headed : forall A c a s s' (f : option text -> option (list attr) -> text -> G A) r, attrs_ok a -> wordt (tx s') ->
  eqt (tx s) (tx s') = false -> trun (x <- Opt Doc ;; y <- attrs_g ;; z <- k s ;; f x y z) (doc_tokens c ++ attrs_tokens a ++ W s' :: r) = TNone.
Proof.
  intros A c a s s' f r O Ww E. rewrite docs_attrs by (try exact O; apply plain_W). rewrite trun_bind, tkW, E by exact Ww. reflexivity.
Qed.
Lemma callback_none : forall d c a s r, attrs_ok a -> wordt (tx s) -> eqt (tx "callback") (tx s) = false ->
  trun (callback_g d) (doc_tokens c ++ attrs_tokens a ++ W s :: r) = TNone.
Proof.
  intros d [x |] a s r O Ww E; unfold callback_g; rewrite trun_bind.
  - cbn [doc_tokens opt]. destruct (lines_join x) as [N _]. destruct (lines x) as [| l ls]; [congruence |]. reflexivity.
  - cbn [doc_tokens opt app]. rewrite attrs_plain by (try exact O; apply plain_W). rewrite trun_bind, tkW, E by exact Ww. reflexivity.
Qed.
Lemma callback_interface : forall d c a w r, attrs_ok a -> trun (callback_g d) (doc_tokens c ++ attrs_tokens a ++ W "callback" :: W "interface" :: name w :: r) = TNone.
Proof.
  intros d [x |] a w r O; unfold callback_g; rewrite trun_bind.
  - cbn [doc_tokens opt]. destruct (lines_join x) as [N _]. destruct (lines x) as [| l ls]; [congruence |]. reflexivity.
  - cbn [doc_tokens opt app]. rewrite attrs_plain by (try exact O; apply plain_W). rewrite trun_bind, tkW by reflexivity. eqts. rewrite trun_bind.
    change (trun ident (W "interface" :: name w :: r)) with (TSome (tx "interface") (name w :: r)). reflexivity.
Qed.
Ltac skip1 := rewrite headed by (try assumption; reflexivity); cbv iota beta.
Lemma def_round : forall d x r, def_ok x -> List.length (def_tokens x) <= d -> trun (def_g d) (def_tokens x ++ r) = TSome x r.
Proof.
  intros d x r O L. rewrite def_step. rewrite !trun_cons.
  destruct x as [a w o l | c a w i l | c a w i l | c a w l | c a w i l | c a w l | a b t w]; cbn [def_tokens def_ok] in *; rewrite ?app_length in L; cbn [List.length] in L; rewrite ?app_length in L; cbn [List.length] in L; rewrite <- ?app_assoc; cbn [app]; rewrite <- ?app_assoc.
  - destruct O as (Oa & Ow & Oo & Ol). unfold callback_g. rewrite trun_bind, attrs_plain by (try exact Oa; apply plain_W). rewrite trun_bind, tkW by reflexivity. eqts.
    rewrite trun_bind, tident by exact Ow. rewrite trun_bind, tpP, trun_bind, return_round by (try exact Oo; try apply args_follow; lia).
    rewrite trun_bind, args_round by (try exact Ol; lia). reflexivity.
  - destruct O as (Oa & Ow & Oi & Ol). rewrite callback_interface by exact Oa. cbv iota beta.
    unfold cbi_g at 1. rewrite docs_attrs by (try exact Oa; apply plain_W). rewrite trun_bind, tkW by reflexivity. eqts. rewrite trun_bind, tkW by reflexivity. eqts.
    rewrite trun_bind, tident by exact Ow. rewrite trun_bind, parent_round by exact Oi. rewrite trun_bind, members_round; [reflexivity | exact Ol |].
    unfold braces in L. cbn [List.length] in L. rewrite app_length in L. lia.
  - destruct O as (Oa & Ow & Oi & Ol). rewrite callback_none by (try exact Oa; reflexivity). unfold cbi_g at 1. skip1.
    unfold interface_g at 1. rewrite docs_attrs by (try exact Oa; apply plain_W). rewrite trun_bind, tkW by reflexivity. eqts.
    rewrite trun_bind, tident by exact Ow. rewrite trun_bind, parent_round by exact Oi. rewrite trun_bind, members_round; [reflexivity | exact Ol |].
    unfold braces in L. cbn [List.length] in L. rewrite app_length in L. lia.
  - destruct O as (Oa & Ow & Ol). rewrite callback_none by (try exact Oa; reflexivity). unfold cbi_g at 1. skip1. unfold interface_g at 1. skip1.
    unfold namespace_g at 1. rewrite docs_attrs by (try exact Oa; apply plain_W). rewrite trun_bind, tkW by reflexivity. eqts.
    rewrite trun_bind, tident by exact Ow. rewrite trun_bind, operations_round; [reflexivity | exact Ol |].
    unfold braces in L. cbn [List.length] in L. rewrite app_length in L. lia.
  - destruct O as (Oa & Ow & Oi & Ol). rewrite callback_none by (try exact Oa; reflexivity). unfold cbi_g at 1. skip1. unfold interface_g at 1. skip1.
    unfold namespace_g at 1. skip1. unfold dictionary_g at 1. rewrite docs_attrs by (try exact Oa; apply plain_W). rewrite trun_bind, tkW by reflexivity. eqts.
    rewrite trun_bind, tident by exact Ow. rewrite trun_bind, parent_round by exact Oi. rewrite trun_bind, fields_round; [reflexivity | exact Ol |].
    unfold braces in L. cbn [List.length] in L. rewrite app_length in L. lia.
  - destruct O as (Oa & Ow & N & _). rewrite callback_none by (try exact Oa; reflexivity). unfold cbi_g at 1. skip1. unfold interface_g at 1. skip1.
    unfold namespace_g at 1. skip1. unfold dictionary_g at 1. skip1. unfold enum_g at 1. rewrite docs_attrs by (try exact Oa; apply plain_W). rewrite trun_bind, tkW by reflexivity. eqts.
    rewrite trun_bind, tident by exact Ow. rewrite trun_bind, variants_round by exact N. reflexivity.
  - cbn [app]. destruct O as (Oa & Ob & Ot & Ow). pose proof (callback_none d None a "typedef" (attrs_tokens b ++ type_tokens t ++ name w :: P ";" :: r) Oa eq_refl eq_refl) as E.
    cbn [doc_tokens opt app] in E. rewrite E. clear E.
    assert (H : forall A s (f : option text -> option (list attr) -> text -> G A), eqt (tx s) (tx "typedef") = false ->
      trun (x <- Opt Doc ;; y <- attrs_g ;; z <- k s ;; f x y z) (attrs_tokens a ++ W "typedef" :: attrs_tokens b ++ type_tokens t ++ name w :: P ";" :: r) = TNone).
    { intros A s f E. exact (headed A None a s "typedef" f _ Oa eq_refl E). }
    unfold cbi_g at 1, interface_g at 1, namespace_g at 1, dictionary_g at 1, enum_g at 1. rewrite !H by reflexivity. cbv iota beta.
    unfold typedef_g. rewrite trun_bind, attrs_plain by (try exact Oa; apply plain_W). rewrite trun_bind, tkW by reflexivity. eqts.
    rewrite trun_bind, attrs_plain by (try exact Ob; apply plain_type, Ot). rewrite trun_bind, type_then_name by (try assumption; lia).
    rewrite trun_bind, tident by exact Ow. reflexivity.
Qed.
Lemma def_nonempty : forall x, def_tokens x <> [].
Proof. intros x E. apply (f_equal (@List.length _)) in E. destruct x; cbn [def_tokens] in E; rewrite ?app_length in E; cbn in E; lia. Qed.
Lemma udl_round : forall d l, Forall def_ok l -> List.length (udl_tokens l) <= d -> trun (Many (def_g d)) (udl_tokens l) = TSome l [].
Proof.
  intros d l F L. unfold udl_tokens. rewrite <- (app_nil_r (flat_map def_tokens l)).
  apply (many_round _ _ _ (fun x => def_ok x /\ List.length (def_tokens x) <= d)).
  - intros x r [O Lx]. apply def_round; assumption.
  - apply def_nonempty.
  - rewrite def_step. reflexivity.
  - rewrite Forall_forall in *. intros x I. split; [apply F, I |]. pose proof (flat_in _ def_tokens l x I). unfold udl_tokens in L. lia.
Qed.
