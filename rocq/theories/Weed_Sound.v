(** What comes out of any text. *)
From Verif Require Import Weed_Model Weed_Spec Weed_Tokens Weed_Refine Weed_Words Weed_Round Weed_Defs Weed_Main.

Definition yields {A} (g : G A) (Q : A -> Prop) : Prop := forall s a s', run g s = Some (a, s') -> Q a.
Lemma y_weaken : forall A (g : G A) (Q R : A -> Prop), yields g Q -> (forall a, Q a -> R a) -> yields g R.
Proof. intros A g Q R H K s a s' E. apply K. exact (H s a s' E). Qed.
Lemma y_any : forall A (g : G A), yields g (fun _ => True).
Proof. intros A g s a s' E. exact I. Qed.
Lemma y_lex : forall l (Q : text -> Prop), (forall s v r, lex l s = Some (v, r) -> Q v) -> yields (Lex l) Q.
Proof. intros l Q H s a s' E. cbn [run] in E. unfold ws in E. destruct (lex l (sp s)) as [[v r] |] eqn:L; [| discriminate E]. injection E as <- <-. exact (H _ _ _ L). Qed.
Lemma y_ret : forall A (a : A) (Q : A -> Prop), Q a -> yields (Ret a) Q.
Proof. intros A a Q H s b s' E. injection E as <- <-. exact H. Qed.
Lemma y_bind : forall A B (g : G A) (f : A -> G B) (Q : A -> Prop) (R : B -> Prop), yields g Q -> (forall a, Q a -> yields (f a) R) -> yields (Bind g f) R.
Proof. intros A B g f Q R H K s b s' E. cbn [run] in E. destruct (run g s) as [[a r] |] eqn:X; [| discriminate E]. exact (K a (H _ _ _ X) _ _ _ E). Qed.
Lemma y_then : forall A B (g : G A) (f : A -> G B) (R : B -> Prop), (forall a, yields (f a) R) -> yields (Bind g f) R.
Proof. intros A B g f R H. apply (y_bind _ _ g f (fun _ => True)); [apply y_any | auto]. Qed.
Lemma y_alt : forall A (g h : G A) (Q : A -> Prop), yields g Q -> yields h Q -> yields (Alt g h) Q.
Proof. intros A g h Q H K s a s' E. cbn [run] in E. destruct (run g s) as [[b r] |] eqn:X; [injection E as <- <-; exact (H _ _ _ X) | exact (K _ _ _ E)]. Qed.
Lemma y_alts : forall A (l : list (G A)) (Q : A -> Prop), Forall (fun g => yields g Q) l -> yields (alts l) Q.
Proof. intros A l Q F. induction F; [intros s a s' E; discriminate E |]. apply y_alt; assumption. Qed.
Lemma y_opt : forall A (g : G A) (Q : A -> Prop), yields g Q -> yields (Opt g) (fun o => forall a, o = Some a -> Q a).
Proof. intros A g Q H s o s' E a ->. cbn [run] in E. destruct (run g s) as [[b r] |] eqn:X; [| discriminate E]. injection E as <- <-. exact (H _ _ _ X). Qed.
Lemma y_many : forall A (g : G A) (Q : A -> Prop), yields g Q -> yields (Many g) (Forall Q).
Proof.
  intros A g Q H s l s' E. cbn [run] in E. revert s l s' E. generalize (fun s : text => List.length s).
  assert (K : forall f s l s', many_loop (run g) f s = Some (l, s') -> Forall Q l); [| intros n s l s' E; exact (K _ _ _ _ E)].
  induction f as [| f IH]; intros s l s' E; cbn [many_loop] in E; (destruct (run g s) as [[b r] |] eqn:X; [| injection E as <- <-; constructor]);
    (destruct (List.length r =? List.length s)%nat; [discriminate E |]); [discriminate E |].
  destruct (many_loop (run g) f r) as [[l2 r2] |] eqn:M; [| discriminate E]. injection E as <- <-. constructor; [exact (H _ _ _ X) | exact (IH _ _ _ M)].
Qed.
Lemma y_sep : forall A one sep (g : G A) (Q : A -> Prop), yields g Q -> yields (Sep one sep g) (fun l => Forall Q l /\ (one = true -> l <> [])).
Proof.
  intros A one sep g Q H s l s' E. cbn [run] in E.
  assert (K : forall f s l s', sep_loop (ws sep) (run g) f s = Some (l, s') -> Forall Q l).
  { induction f as [| f IH]; intros t k t' D; cbn [sep_loop] in D; (destruct (ws sep t) as [[v t1] |]; [| injection D as <- <-; constructor]);
      (destruct (List.length t1 =? List.length t)%nat; [discriminate D |]); (destruct (run g t1) as [[b r] |] eqn:X; [| injection D as <- <-; constructor]); [discriminate D |].
    destruct (sep_loop (ws sep) (run g) f r) as [[l2 r2] |] eqn:M; [| discriminate D]. injection D as <- <-. constructor; [exact (H _ _ _ X) | exact (IH _ _ _ M)]. }
  destruct (run g s) as [[b r] |] eqn:X.
  - destruct (sep_loop (ws sep) (run g) (List.length r) r) as [[l2 r2] |] eqn:M; [| discriminate E]. injection E as <- <-. split; [constructor; [exact (H _ _ _ X) | exact (K _ _ _ _ M)] | discriminate].
  - destruct one; [discriminate E |]. injection E as <- <-. split; [constructor | discriminate].
Qed.

(** ** Terminals *)
Lemma matched_prefix : forall a r, matched (a ++ r) r = a.
Proof. intros a r. unfold matched. rewrite app_length, Nat.add_sub. rewrite firstn_app, Nat.sub_diag, firstn_all. apply app_nil_r. Qed.
Lemma alnum_word : forall x, is_alphanum x = true -> is_word x = true.
Proof. intros x E. unfold is_word. rewrite E. reflexivity. Qed.
Lemma y_ident : yields ident name_read.
Proof.
  apply y_lex. intros s v r E. cbn [lex] in E. destruct (ident_start s) as [t |]; [| discriminate E]. unfold value, ident_body, then_, while1, while0, ch in E.
  destruct t as [| x t]; [discriminate E |]. destruct (is_alphanum x) eqn:X; [| discriminate E]. injection E as <- <-.
  destruct (skip_split is_alphanum t) as (a & Ea & Ha). destruct (skip_split is_word (skip is_alphanum t)) as (b & Eb & Hb).
  set (r := skip is_word (skip is_alphanum t)) in *.
  assert (Et : x :: t = (x :: a ++ b) ++ r) by (cbn [app]; rewrite <- app_assoc, <- Eb, <- Ea; reflexivity).
  rewrite Et, matched_prefix. exists x, (a ++ b). split; [reflexivity |]. split.
  - unfold is_alphanum in X. apply orb_true_iff in X. destruct X as [X | X]; [left; apply letter_is, X | right; apply digit_is, X].
  - apply Forall_forall. intros y I. apply word_is. apply in_app_iff in I. destruct I as [I | I].
    + rewrite forallb_forall in Ha. apply alnum_word, Ha, I.
    + rewrite forallb_forall in Hb. apply Hb, I.
Qed.
Lemma y_str : yields (Lex LStr) (fun s => ~ In quote s).
Proof.
  apply y_lex. intros s v r E. cbn [lex] in E. destruct s as [| x s]; [discriminate E |]. destruct (is_char """" x); [| discriminate E].
  revert v r E. induction s as [| y s IH]; intros v r E; cbn [until_quote] in E; [discriminate E |]. destruct (is_char """" y) eqn:Y.
  - injection E as <- <-. intros [].
  - destruct (until_quote s) as [[v' r'] |]; [| discriminate E]. injection E as <- <-. intros [-> | I]; [discriminate Y | exact (IH _ _ eq_refl I)].
Qed.

(** ** Types *)
Ltac thens := repeat (apply y_then; intro).
Lemma y_named : forall l, (forall s, In s l -> In s plain_types) -> Forall (fun g => yields g (fun t => type_read t /\ t <> TAny)) (map named l).
Proof.
  intros l H. apply Forall_forall. intros g I. apply in_map_iff in I. destruct I as (s & <- & I). unfold named. thens. apply y_ret. split; [apply H, I | discriminate].
Qed.
Lemma y_nonany : forall d, yields (nonany_g d) (fun t => type_read t /\ t <> TAny).
Proof.
  induction d as [| d IH]; [intros s a s' E; discriminate E |]. rewrite nonany_step.
  assert (An : yields (any_or d) type_read).
  { unfold any_or. apply y_alt; [thens; apply y_ret; exact I |]. apply (y_weaken _ _ _ _ IH). intros a [H _]. exact H. }
  apply y_alts. repeat (apply Forall_app; split).
  - repeat apply Forall_cons; try apply Forall_nil.
    + unfold promise_g. do 2 (apply y_then; intro). apply (y_bind _ _ _ _ (fun o => forall t, o = Some t -> type_read t)).
      * apply y_alt; [thens; apply y_ret; intros t E; discriminate E |].
        eapply y_bind; [exact An |]. intros t H. apply y_ret. intros t' E. injection E as <-. exact H.
      * intros o H. thens. apply y_ret. split; [| discriminate]. destruct o as [t |]; [exact (H t eq_refl) | exact I].
    + unfold integer. apply y_alts. repeat apply Forall_cons; try apply Forall_nil; thens; apply y_ret; (split; [exact I | discriminate]).
    + unfold floating. apply y_alts. repeat apply Forall_cons; try apply Forall_nil; thens; apply y_ret; (split; [exact I | discriminate]).
  - apply y_named. intros s. apply sub. reflexivity.
  - repeat apply Forall_cons; try apply Forall_nil. unfold sequence_g. do 2 (apply y_then; intro). eapply y_bind; [exact An |]. intros t H. thens. apply y_ret. split; [exact H | discriminate].
  - apply y_named. intros s. apply sub. reflexivity.
  - repeat apply Forall_cons; try apply Forall_nil.
    + unfold frozen_g. do 2 (apply y_then; intro). eapply y_bind; [exact An |]. intros t H. thens. apply y_ret. split; [exact H | discriminate].
    + unfold record_g. do 2 (apply y_then; intro). apply (y_bind _ _ _ _ (fun f => forall t n, type_read t -> type_read (f t n) /\ f t n <> TAny)).
      * unfold record_key. apply y_alt.
        -- apply y_alts. apply Forall_forall. intros g I. apply in_map_iff in I. destruct I as (s & <- & I). thens. apply y_ret. intros t n H. split; [split; [exact I | exact H] | discriminate].
        -- eapply y_bind; [exact IH |]. intros key [Hk Nk]. apply y_ret. intros t n H. split; [split; [exact Nk | split; assumption] | discriminate].
      * intros f Hf. apply y_then. intro. eapply y_bind; [exact An |]. intros t H. thens. apply y_ret. apply Hf, H.
    + unfold plain_g. eapply y_bind; [exact y_ident |]. intros w H. thens. apply y_ret. split; [exact H | discriminate].
Qed.
Lemma y_type : forall d, yields (type_g d) type_read.
Proof. intros d. unfold type_g. apply y_alt; [thens; apply y_ret; exact I |]. apply (y_weaken _ _ _ _ (y_nonany d)). intros a [H _]. exact H. Qed.
Lemma y_return : forall d, yields (return_g d) return_read.
Proof.
  intros d. unfold return_g. apply y_alt; [thens; apply y_ret; intros t E; discriminate E |]. eapply y_bind; [exact (y_type d) |]. intros t H. apply y_ret. intros t' E. injection E as <-. exact H.
Qed.
Lemma y_attr : yields attr_g attr_read.
Proof.
  unfold attr_g. apply y_alts. repeat apply Forall_cons; try apply Forall_nil; (eapply y_bind; [exact y_ident |]; intros w Hw).
  - do 2 (apply y_then; intro). eapply y_bind; [apply y_sep, y_ident |]. intros l [Hl _]. thens. apply y_ret. split; assumption.
  - apply y_then. intro. apply y_alt; (eapply y_bind; [first [exact y_ident | exact y_str] |]); intros v Hv; apply y_ret; split; assumption.
  - apply y_ret. exact Hw.
Qed.
Lemma y_attrs : yields attrs_g attrs_read.
Proof. unfold attrs_g. apply y_opt. apply y_then. intro. eapply y_bind; [apply y_sep, y_attr |]. intros l [H _]. thens. apply y_ret. exact H. Qed.
Lemma y_default : yields (Opt default_g) default_read.
Proof.
  apply y_opt. unfold default_g. apply y_then. intro. unfold lit_g. apply y_alts. repeat apply Forall_cons; try apply Forall_nil.
  1-12: thens; apply y_ret; exact I.
  eapply y_bind; [exact y_str |]. intros s H. apply y_ret. exact H.
Qed.

(** ** Members and definitions *)
Lemma y_args : forall d, yields (args_g d) (Forall arg_read).
Proof.
  intros d. unfold args_g. apply y_then. intros ?. eapply y_bind; [apply (y_sep _ _ _ _ arg_read) |].
  - unfold arg_g. eapply y_bind; [exact y_attrs |]. intros at0 Ha. apply y_then. intros o. eapply y_bind; [exact y_attrs |]. intros b Hb.
    eapply y_bind; [exact (y_type d) |]. intros t Ht. eapply y_bind; [exact y_ident |]. intros w Hw.
    apply (y_bind _ _ _ _ (fun v => default_read v /\ (o = false -> v = None))).
    + destruct o; [apply (y_weaken _ _ _ _ y_default); intros v Hv; split; [exact Hv | discriminate] |]. apply y_ret. split; [intros v E; discriminate E | reflexivity].
    + intros v [Hv Ho]. apply y_ret. repeat (split; [assumption |]). exact Ho.
  - intros l [H _]. thens. apply y_ret. exact H.
Qed.
Lemma y_field : forall d, yields (field_g d) field_read.
Proof.
  intros d. unfold field_g. apply y_then. intros ?. eapply y_bind; [exact y_attrs |]. intros at0 Ha. apply y_then. intro. eapply y_bind; [exact (y_type d) |]. intros t Ht.
  eapply y_bind; [exact y_ident |]. intros w Hw. eapply y_bind; [exact y_default |]. intros v Hv. thens. apply y_ret. repeat (split; [assumption |]). exact Hv.
Qed.
Lemma y_one_of : forall l, yields (one_of l) (Forall (fun s => In s l)).
Proof.
  intros l. unfold one_of. eapply y_bind.
  - apply (y_opt _ _ (fun s => In s l)). apply y_alts. apply Forall_forall. intros g I. apply in_map_iff in I. destruct I as (s & <- & I). thens. apply y_ret. exact I.
  - intros [s |] H; apply y_ret; [constructor; [exact (H s eq_refl) | constructor] | constructor].
Qed.
Lemma y_operation : forall sp d, yields (operation_g sp d) (fun m => member_read m /\ (sp = false -> function_read m)).
Proof.
  intros sp d. unfold operation_g. apply y_then. intros ?. eapply y_bind; [exact y_attrs |]. intros at0 Ha.
  apply (y_bind _ _ _ _ (fun x => Forall (fun s => In s special_words) x /\ (sp = false -> x = []))).
  - destruct sp; [| apply y_ret; split; [constructor | reflexivity]]. eapply y_bind; [apply y_one_of |]. intros y Hy. eapply y_bind; [apply y_one_of |]. intros z Hz.
    apply y_ret. split; [| discriminate]. apply Forall_app. split; (eapply Forall_impl; [| eassumption]); intros s; apply sub; reflexivity.
  - intros x [Hx Nx]. eapply y_bind; [exact (y_return d) |]. intros r Hr. eapply y_bind; [apply y_opt, y_ident |]. intros w Hw. eapply y_bind; [exact (y_args d) |]. intros l Hl.
    thens. apply y_ret. split; [repeat (split; [assumption |]); assumption |]. exact Nx.
Qed.
Lemma y_members : forall d, yields (members_g d) (Forall member_read).
Proof.
  intros d. unfold members_g. apply y_many, y_alt.
  - unfold constructor_g. apply y_then. intros ?. eapply y_bind; [exact y_attrs |]. intros at0 Ha. apply y_then. intro. eapply y_bind; [exact (y_args d) |]. intros l Hl. thens. apply y_ret. split; assumption.
  - apply (y_weaken _ _ _ _ (y_operation true d)). intros m [H _]. exact H.
Qed.
Lemma y_braced : forall A (g : G A) Q, yields g Q -> yields (braced g) Q.
Proof. intros A g Q H. unfold braced. apply y_then. intros ?. eapply y_bind; [exact H |]. intros x Hx. thens. apply y_ret. exact Hx. Qed.
Lemma y_parent : yields parent_g maybe_name.
Proof. unfold parent_g. apply y_opt. apply y_then. intro. exact y_ident. Qed.
Lemma y_def : forall d, yields (def_g d) def_read.
Proof.
  intros d. rewrite def_step. apply y_alts. repeat apply Forall_cons; try apply Forall_nil;
    unfold callback_g, cbi_g, interface_g, namespace_g, dictionary_g, enum_g, typedef_g; first [eapply y_bind; [exact y_attrs |]; intros at0 Ha | apply y_then; intro c; eapply y_bind; [exact y_attrs |]; intros at0 Ha].
  - apply y_then. intro. eapply y_bind; [exact y_ident |]. intros w Hw. apply y_then. intro. eapply y_bind; [exact (y_return d) |]. intros r Hr.
    eapply y_bind; [exact (y_args d) |]. intros l Hl. thens. apply y_ret. repeat (split; [assumption |]). exact Hl.
  - do 2 (apply y_then; intro). eapply y_bind; [exact y_ident |]. intros w Hw. eapply y_bind; [exact y_parent |]. intros i Hi.
    eapply y_bind; [apply y_braced, y_members |]. intros l Hl. apply y_ret. repeat (split; [assumption |]). exact Hl.
  - apply y_then; intro. eapply y_bind; [exact y_ident |]. intros w Hw. eapply y_bind; [exact y_parent |]. intros i Hi.
    eapply y_bind; [apply y_braced, y_members |]. intros l Hl. apply y_ret. repeat (split; [assumption |]). exact Hl.
  - apply y_then; intro. eapply y_bind; [exact y_ident |]. intros w Hw. eapply y_bind; [apply y_braced, y_many, (y_operation false d) |]. intros l Hl. apply y_ret.
    repeat (split; [assumption |]). eapply Forall_impl; [| exact Hl]. intros m [H1 H2]. split; [exact H1 | exact (H2 eq_refl)].
  - apply y_then; intro. eapply y_bind; [exact y_ident |]. intros w Hw. eapply y_bind; [exact y_parent |]. intros i Hi.
    eapply y_bind; [apply y_braced, y_many, (y_field d) |]. intros l Hl. apply y_ret. repeat (split; [assumption |]). exact Hl.
  - apply y_then; intro. eapply y_bind; [exact y_ident |]. intros w Hw.
    apply (y_bind _ _ _ _ (fun l => l <> [] /\ Forall (fun v => ~ In quote (snd v)) l)).
    + apply y_braced. unfold variants_g. eapply y_bind; [apply (y_sep _ _ _ _ (fun v => ~ In quote (snd v))) |].
      * apply y_then. intro. eapply y_bind; [exact y_str |]. intros s H. apply y_ret. exact H.
      * intros l [H N]. thens. apply y_ret. split; [apply N; reflexivity | exact H].
    + intros l [N H]. apply y_ret. repeat (split; [assumption |]). exact H.
  - apply y_then; intro. eapply y_bind; [exact y_attrs |]. intros b Hb. eapply y_bind; [exact (y_type d) |]. intros t Ht. eapply y_bind; [exact y_ident |]. intros w Hw.
    thens. apply y_ret. repeat (split; [assumption |]). exact Hw.
Qed.
Lemma read_sound : forall s l, read_udl s = Parsed l -> Forall def_read l.
Proof.
  intros s l E. unfold read_udl, definitions in E.
  destruct (run (Many (def_g (List.length (trim s)))) (trim s)) as [[l' [| x r]] |] eqn:R; try discriminate E. injection E as ->.
  exact (y_many _ _ _ (y_def _) _ _ _ R).
Qed.
