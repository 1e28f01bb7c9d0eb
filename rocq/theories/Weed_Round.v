(** Grammars give back what was written, on tokens. *)
From Verif Require Import Weed_Model Weed_Spec Weed_Tokens Weed_Refine Weed_Words.

(** ** Steps *)
Lemma trun_bind : forall A B (g : G A) (f : A -> G B) ts,
  trun (Bind g f) ts = match trun g ts with TSome a r => trun (f a) r | TNone => TNone | TInside => TInside end.
Proof. reflexivity. Qed.
Lemma trun_alt : forall A (g h : G A) ts,
  trun (Alt g h) ts = match trun g ts with TSome a r => TSome a r | TNone => trun h ts | TInside => TInside end.
Proof. reflexivity. Qed.
Lemma trun_cons : forall A (g : G A) l ts,
  trun (alts (g :: l)) ts = match trun g ts with TSome a r => TSome a r | TNone => trun (alts l) ts | TInside => TInside end.
Proof. reflexivity. Qed.
Lemma trun_app : forall A (l l' : list (G A)) ts,
  trun (alts (l ++ l')) ts = match trun (alts l) ts with TSome a r => TSome a r | TNone => trun (alts l') ts | TInside => TInside end.
Proof. induction l as [| g l IH]; intros l' ts; [reflexivity |]. cbn [app]. rewrite !trun_cons. destruct (trun g ts); [reflexivity | apply IH | reflexivity]. Qed.
Lemma trun_given : forall A (g : G A) ts,
  trun (given g) ts = match trun g ts with TSome _ r => TSome true r | TNone => TSome false ts | TInside => TInside end.
Proof. intros A g ts. unfold given. cbn [trun]. destruct (trun g ts); reflexivity. Qed.
Lemma trun_opt : forall A (g : G A) ts,
  trun (Opt g) ts = match trun g ts with TSome a r => TSome (Some a) r | TNone => TSome None ts | TInside => TInside end.
Proof. reflexivity. Qed.
Lemma trun_ret : forall A (a : A) ts, trun (Ret a) ts = TSome a ts.
Proof. reflexivity. Qed.
Lemma tkW : forall s s' r, wordt (tx s') -> trun (k s) (W s' :: r) = if eqt (tx s) (tx s') then TSome (tx s') r else TNone.
Proof. intros s s' r H. apply tk, H. Qed.
Lemma tkP : forall s c r, trun (k s) (P c :: r) = TNone.
Proof. reflexivity. Qed.
Lemma tpP : forall s r, trun (p s) (P s :: r) = TSome [match s with String c _ => c | EmptyString => zero end] r.
Proof. intros s r. unfold p, P. cbn [trun tlex]. rewrite Ascii.eqb_refl. reflexivity. Qed.
Lemma bind_none : forall A B (g : G A) (f : A -> G B) ts, trun g ts = TNone -> trun (Bind g f) ts = TNone.
Proof. intros A B g f ts E. rewrite trun_bind, E. reflexivity. Qed.
Ltac eqts := match goal with |- context [eqt ?a ?b] => let v := eval vm_compute in (eqt a b) in match v with true => idtac | false => idtac end; change (eqt a b) with v; cbv iota beta end.
Ltac tw := repeat first
  [ rewrite trun_bind | rewrite trun_alt | rewrite trun_cons | rewrite trun_given | rewrite trun_opt | rewrite trun_ret
  | rewrite tkW by reflexivity; eqts | rewrite tkP | rewrite tpP
  | rewrite tident by assumption | rewrite tkN by (first [assumption | reflexivity])
  | progress cbv iota beta ].

(** ** What may follow *)
Definition no (c : string) (r : list token) : Prop := forall r', r <> P c :: r'.
Definition no_name (r : list token) : Prop := forall w r', r = Chunk w :: r' -> exists v, name_ok v /\ w = nm v.
Definition follow (r : list token) : Prop := no "?" r /\ no_name r.
Lemma p_none : forall c r, no c r -> trun (p c) r = TNone.
Proof.
  intros c r N. destruct r as [| [w | x | q | d] r]; try reflexivity. unfold p. cbn [trun tlex].
  destruct (Ascii.eqb_spec (match c with String a _ => a | EmptyString => zero end) x) as [E | D]; [| reflexivity].
  exfalso. apply (N r). unfold P. congruence.
Qed.
Lemma no_P : forall c c' r, eqt (tx c) (tx c') = false -> List.length (tx c) = 1 -> List.length (tx c') = 1 -> no c (P c' :: r).
Proof.
  intros c c' r N L L' r' E. injection E as E _. destruct c as [| a [| ]]; try discriminate L. destruct c' as [| a' [| ]]; try discriminate L'.
  cbn in E. subst. rewrite eqt_refl in N. discriminate N.
Qed.
Lemma no_chunk : forall c w r, no c (Chunk w :: r).
Proof. intros c w r r' E. discriminate E. Qed.
Lemma no_nil : forall c, no c [].
Proof. intros c r' E. discriminate E. Qed.
Lemma follow_P : forall c r, eqt (tx "?") (tx c) = false -> List.length (tx c) = 1 -> follow (P c :: r).
Proof. intros c r N L. split; [apply no_P; auto |]. intros w r' E. discriminate E. Qed.
Lemma follow_name : forall w r, name_ok w -> follow (name w :: r).
Proof. intros w r O. split; [apply no_chunk |]. intros v r' E. injection E as <- <-. exists w. split; [exact O | reflexivity]. Qed.
Lemma null_round : forall n r, no "?" r -> trun null (flag n (P "?") ++ r) = TSome n r.
Proof. intros [|] r N; unfold null; rewrite trun_given; [reflexivity |]. cbn [flag app]. rewrite (p_none _ _ N). reflexivity. Qed.
Lemma follow_miss : forall s r, known s = true -> follow r -> trun (k s) r = TNone.
Proof.
  intros s r K [_ F]. destruct r as [| [w | c | q | d] r]; try reflexivity. destruct (F w r eq_refl) as (v & O & ->). apply (tkN s v r K O).
Qed.
Lemma flag_miss : forall s n r, known s = true -> follow r -> trun (k s) (flag n (P "?") ++ r) = TNone.
Proof. intros s [|] r K F; [reflexivity |]. apply follow_miss; assumption. Qed.

(** ** Types *)
Definition starters : list string := ["any"; "Promise"; "unsigned"; "long"; "short"; "unrestricted"; "float"; "double"; "boolean"; "byte"; "octet"; "ByteString";
   "DOMString"; "USVString"; "sequence"; "object"; "symbol"; "Error"; "ArrayBuffer"; "DataView"; "Int8Array"; "Int16Array"; "Int32Array";
   "Uint8Array"; "Uint16Array"; "Uint32Array"; "Uint8ClampedArray"; "Float32Array"; "Float64Array"; "ArrayBufferView"; "BufferSource";
   "FrozenArray"; "record"].
Definition others : list string := ["undefined"; "optional"; "required"; "constructor"; "stringifier"; "static"; "getter"; "setter"; "deleter"; "legacycaller"].
Lemma starters_word : forall s, In s starters -> wordt (tx s).
Proof. apply Forall_forall. repeat constructor. Qed.
Lemma tx_inj : forall a b, tx a = tx b -> a = b.
Proof. intros a b E. unfold tx in E. rewrite <- (string_of_list_ascii_of_string a), E. apply string_of_list_ascii_of_string. Qed.
Lemma sub : forall l l' s, forallb (fun a => existsb (String.eqb a) l') l = true -> In s l -> In s l'.
Proof. intros l l' s H I. rewrite forallb_forall in H. specialize (H s I). apply existsb_exists in H. destruct H as (x & J & E). apply String.eqb_eq in E. now subst. Qed.
Lemma not_in : forall l q s, forallb (fun a => negb (String.eqb a q)) l = true -> In s l -> s <> q.
Proof. intros l q s H I ->. rewrite forallb_forall in H. specialize (H q I). rewrite String.eqb_refl in H. discriminate H. Qed.
Definition all_names : list string := names1 ++ names2.
Lemma named_ok : forall s n, type_ok (TNamed s n) -> In s all_names.
Proof. intros s n O. exact O. Qed.
Lemma type_head : forall t, type_ok t -> exists w r, type_tokens t = Chunk w :: r /\ wordt w /\ (In w (map tx starters) /\ (t <> TAny -> w <> tx "any") \/ is_keyword w = false).
Proof.
  assert (H : forall s, In s starters -> s <> "any" -> forall r t, exists w r', W s :: r = Chunk w :: r' /\ wordt w /\ (In w (map tx starters) /\ (t <> TAny -> w <> tx "any") \/ is_keyword w = false)).
  { intros s I N r t. exists (tx s), r. split; [reflexivity |]. split; [apply starters_word, I |]. left. split; [apply in_map, I |]. intros _ E. apply tx_inj in E. contradiction. }
  intros t O. destruct t as [| [r |] | u i n | u f n | s n | t n | t n | s t n | key t n | w n]; cbn [type_tokens].
  1: exists (tx "any"), []; split; [reflexivity |]; split; [reflexivity |]; left; split; [now left | congruence].
  1, 2: apply H; [cbn; tauto | discriminate].
  1: destruct u, i; cbn [flag app]; apply H; (cbn; tauto) || discriminate.
  1: destruct u, f; cbn [flag app]; apply H; (cbn; tauto) || discriminate.
  1: apply named_ok in O; apply H; [revert O; apply sub; reflexivity | revert O; apply not_in; reflexivity].
  1-4: apply H; [cbn; tauto | discriminate].
  exists (nm w). eexists. split; [reflexivity |]. split; [apply nm_word, O |]. right. apply nm_free.
Qed.
Lemma type_miss : forall s t r, In s others -> type_ok t -> trun (k s) (type_tokens t ++ r) = TNone.
Proof.
  intros s t r I O. destruct (type_head t O) as (w & r' & -> & Ww & H). cbn [app]. rewrite tk by exact Ww.
  assert (E : eqt (tx s) w = false); [| rewrite E; reflexivity]. destruct H as [(H & _) | H].
  - apply in_map_iff in H. destruct H as (s' & <- & H).
    assert (Q : forallb (fun a => forallb (fun b => negb (eqt (tx a) (tx b))) starters) others = true) by (vm_compute; reflexivity).
    rewrite forallb_forall in Q. specialize (Q s I). rewrite forallb_forall in Q. specialize (Q s' H). apply negb_true_iff in Q. exact Q.
  - apply free_eqt; [exact H |]. cbn in I. repeat (destruct I as [<- | I]; [apply known_in; reflexivity |]). contradiction.
Qed.
Lemma any_miss : forall t r, t <> TAny -> type_ok t -> trun (k "any") (type_tokens t ++ r) = TNone.
Proof.
  intros t r N O. destruct (type_head t O) as (w & r' & -> & Ww & H). cbn [app]. rewrite tk by exact Ww.
  assert (E : eqt (tx "any") w = false); [| rewrite E; reflexivity]. destruct H as [(_ & H) | H].
  - apply eqt_neq. intros E. apply (H N). congruence.
  - apply free_eqt; [exact H |]. apply known_in. reflexivity.
Qed.
Lemma named_hit : forall l s r n r', Forall (fun a => wordt (tx a)) l -> In s l -> trun null r = TSome n r' -> trun (alts (map named l)) (W s :: r) = TSome (TNamed s n) r'.
Proof.
  intros l s r n r' F I N. assert (Ws : wordt (tx s)) by (rewrite Forall_forall in F; apply F, I). clear F.
  induction l as [| a l IH]; [contradiction |]. cbn [map]. rewrite trun_cons.
  unfold named at 1. rewrite trun_bind, tkW by exact Ws. unfold eqt. destruct (list_eq_dec ascii_dec (tx a) (tx s)) as [E | D].
  - apply tx_inj in E. subst. rewrite trun_bind, N. reflexivity.
  - destruct I as [<- | I]; [congruence |]. apply IH; assumption.
Qed.
Lemma named_miss : forall l w r, wordt w -> (forall s, In s l -> tx s <> w) -> trun (alts (map named l)) (Chunk w :: r) = TNone.
Proof.
  intros l w r Ww. induction l as [| a l IH]; intros N; [reflexivity |]. cbn [map]. rewrite trun_cons. unfold named at 1.
  rewrite bind_none; [apply IH; intros s I; apply N; now right |]. rewrite tk by exact Ww. rewrite eqt_neq; [reflexivity |]. apply N. now left.
Qed.
Definition any_or (d : nat) : G ty := Alt (k "any" ;;; Ret TAny) (nonany_g d).
Definition promise_g d : G ty := k "Promise" ;;; p "<" ;;; r <- Alt (k "undefined" ;;; Ret None) (t <- any_or d ;; Ret (Some t)) ;; p ">" ;;; Ret (TPromise r).
Definition sequence_g d : G ty := k "sequence" ;;; p "<" ;;; t <- any_or d ;; p ">" ;;; n <- null ;; Ret (TSequence t n).
Definition frozen_g d : G ty := k "FrozenArray" ;;; p "<" ;;; t <- any_or d ;; p ">" ;;; n <- null ;; Ret (TFrozen t n).
Definition keys_g : list string := ["ByteString"; "DOMString"; "USVString"].
Definition record_key d : G (ty -> bool -> ty) := Alt (alts (map (fun s => k s ;;; Ret (TRecord s)) keys_g)) (key <- nonany_g d ;; Ret (TRecordOf key)).
Definition record_g d : G ty := k "record" ;;; p "<" ;;; f <- record_key d ;; p "," ;;; t <- any_or d ;; p ">" ;;; n <- null ;; Ret (f t n).
Definition plain_g : G ty := w <- ident ;; n <- null ;; Ret (TIdent w n).
Lemma nonany_step : forall d, nonany_g (S d) =
  alts ([promise_g d; integer; floating] ++ map named names1 ++ [sequence_g d] ++ map named names2 ++ [frozen_g d; record_g d; plain_g]).
Proof. reflexivity. Qed.
Lemma kw_none : forall A s (f : text -> G A) w r, wordt w -> eqt (tx s) w = false -> trun (Bind (k s) f) (Chunk w :: r) = TNone.
Proof. intros A s f w r Ww E. apply bind_none. rewrite tk by exact Ww. rewrite E. reflexivity. Qed.
Lemma integer_miss : forall w r, wordt w -> eqt (tx "unsigned") w = false -> eqt (tx "long") w = false -> eqt (tx "short") w = false -> trun integer (Chunk w :: r) = TNone.
Proof. intros w r Ww A B C. unfold integer. repeat rewrite trun_cons. repeat rewrite trun_bind. repeat rewrite trun_given. rewrite !tk by exact Ww. rewrite A. cbv iota beta. rewrite !trun_bind, !tk by exact Ww. rewrite B, C. reflexivity. Qed.
Lemma floating_miss : forall w r, wordt w -> eqt (tx "unrestricted") w = false -> eqt (tx "float") w = false -> eqt (tx "double") w = false -> trun floating (Chunk w :: r) = TNone.
Proof. intros w r Ww A B C. unfold floating. repeat rewrite trun_cons. repeat rewrite trun_bind. repeat rewrite trun_given. rewrite !tk by exact Ww. rewrite A. cbv iota beta. rewrite !trun_bind, !tk by exact Ww. rewrite B, C. reflexivity. Qed.
Lemma names1_word : Forall (fun a => wordt (tx a)) names1. Proof. repeat constructor. Qed.
Lemma names2_word : Forall (fun a => wordt (tx a)) names2. Proof. repeat constructor. Qed.
(** A list of words to be missed, decided. *)
Definition misses (w : text) (l : list string) : bool := forallb (fun s => negb (eqt (tx s) w)) l.
Lemma misses_in : forall w l s, misses w l = true -> In s l -> tx s <> w.
Proof. intros w l s H I E. unfold misses in H. rewrite forallb_forall in H. specialize (H s I). rewrite E, eqt_refl in H. discriminate H. Qed.

Section Depth.
  Variable d : nat.
  Hypothesis IH : forall t r, type_ok t -> t <> TAny -> List.length (type_tokens t) <= d -> follow r -> trun (nonany_g d) (type_tokens t ++ r) = TSome t r.
  Lemma any_or_round : forall t r, type_ok t -> List.length (type_tokens t) <= d -> follow r -> trun (any_or d) (type_tokens t ++ r) = TSome t r.
  Proof.
    intros t r O L F. assert (D : t = TAny \/ t <> TAny) by (destruct t; (left; reflexivity) || (right; discriminate)).
    destruct D as [-> | N]; [reflexivity |]. unfold any_or. rewrite trun_alt, bind_none by (apply any_miss; assumption). apply IH; assumption.
  Qed.
  Lemma gt_follow : forall r, follow (P ">" :: r). Proof. intros r. apply follow_P; reflexivity. Qed.
  Lemma sequence_round : forall t n r, type_ok t -> List.length (type_tokens t) <= d -> no "?" r ->
    trun (sequence_g d) (W "sequence" :: P "<" :: (type_tokens t ++ P ">" :: flag n (P "?")) ++ r) = TSome (TSequence t n) r.
  Proof.
    intros t n r O L N. unfold sequence_g. tw. rewrite <- app_assoc. rewrite any_or_round by (try assumption; apply gt_follow). cbn [app]. tw.
    rewrite null_round by exact N. reflexivity.
  Qed.
  Lemma frozen_round : forall t n r, type_ok t -> List.length (type_tokens t) <= d -> no "?" r ->
    trun (frozen_g d) (W "FrozenArray" :: P "<" :: (type_tokens t ++ P ">" :: flag n (P "?")) ++ r) = TSome (TFrozen t n) r.
  Proof.
    intros t n r O L N. unfold frozen_g. tw. rewrite <- app_assoc. rewrite any_or_round by (try assumption; apply gt_follow). cbn [app]. tw.
    rewrite null_round by exact N. reflexivity.
  Qed.
  Lemma promise_round : forall o r, match o with Some t => type_ok t /\ List.length (type_tokens t) <= d | None => True end ->
    trun (promise_g d) (type_tokens (TPromise o) ++ r) = TSome (TPromise o) r.
  Proof.
    intros [t |] r O; cbn [type_tokens]; [| reflexivity]. destruct O as [O L]. unfold promise_g. cbn [app]. tw. rewrite <- app_assoc.
    rewrite type_miss by (try exact O; now left). rewrite any_or_round by (try assumption; apply gt_follow). cbn [app]. tw. reflexivity.
  Qed.
  Lemma record_string_round : forall s t n r, In s keys_g -> type_ok t -> List.length (type_tokens t) <= d -> no "?" r ->
    trun (record_g d) (W "record" :: P "<" :: W s :: P "," :: (type_tokens t ++ P ">" :: flag n (P "?")) ++ r) = TSome (TRecord s t n) r.
  Proof.
    intros s t n r I O L N. unfold record_g. tw.
    assert (E : forall r', trun (record_key d) (W s :: r') = TSome (TRecord s) r') by (intros r'; cbn in I; repeat (destruct I as [<- | I]; [reflexivity |]); contradiction).
    rewrite E. tw. rewrite <- app_assoc. rewrite any_or_round by (try assumption; apply gt_follow). cbn [app]. tw. rewrite null_round by exact N. reflexivity.
  Qed.
  Lemma key_miss : forall s t r, In s keys_g -> key_ok t -> type_ok t -> trun (k s) (type_tokens t ++ r) = TNone.
  Proof.
    intros s t r I K O.
    destruct t as [| [t |] | u i n | u f n | s' n | t n | t n | s' t n | key t n | w n]; try contradiction; cbn [type_tokens app].
    3: destruct u, i; cbn [flag app].
    9: destruct u, f; cbn [flag app].
    13: { apply named_ok in O. rewrite tkW by (apply starters_word; revert O; apply sub; reflexivity). rewrite eqt_neq; [reflexivity |]. intros E. apply tx_inj in E. subst. exact (K I). }
    17: { apply tkN; [| exact O]. cbn in I. repeat (destruct I as [<- | I]; [reflexivity |]). contradiction. }
    all: cbn in I; repeat (destruct I as [<- | I]; [reflexivity |]); contradiction.
  Qed.
  Lemma record_round : forall key t n r, key_ok key -> type_ok key -> type_ok t -> List.length (type_tokens key) <= d -> List.length (type_tokens t) <= d -> no "?" r ->
    trun (record_g d) (W "record" :: P "<" :: (type_tokens key ++ P "," :: type_tokens t ++ P ">" :: flag n (P "?")) ++ r) = TSome (TRecordOf key t n) r.
  Proof.
    intros key t n r K Ok O Lk L N. unfold record_g. tw. rewrite <- app_assoc. cbn [app]. rewrite <- app_assoc. cbn [app].
    unfold record_key at 1. cbn [map keys_g]. tw. rewrite !key_miss by (try assumption; cbn; tauto). cbv iota beta.
    change (trun (alts []) ?x) with (@TNone (ty -> bool -> ty)). cbv iota beta.
    rewrite IH; [| exact Ok | destruct key; (contradiction || discriminate) | exact Lk | apply follow_P; reflexivity]. tw.
    rewrite any_or_round by (try assumption; apply gt_follow). tw. rewrite null_round by exact N. reflexivity.
  Qed.
End Depth.
Lemma integer_round : forall u i n r, follow r -> trun integer (type_tokens (TInt u i n) ++ r) = TSome (TInt u i n) r.
Proof.
  intros u i n r F. assert (N : no "?" r) by apply F. unfold integer. destruct u, i; cbn [type_tokens flag app]; tw; rewrite ?flag_miss by (try exact F; reflexivity); tw; rewrite ?null_round by exact N; reflexivity.
Qed.
Lemma floating_round : forall u f n r, follow r -> trun floating (type_tokens (TFloat u f n) ++ r) = TSome (TFloat u f n) r.
Proof.
  intros u f n r F. assert (N : no "?" r) by apply F. unfold floating. destruct u, f; cbn [type_tokens flag app]; tw; rewrite ?null_round by exact N; reflexivity.
Qed.
Lemma nonany_round : forall d t r, type_ok t -> t <> TAny -> List.length (type_tokens t) <= d -> follow r -> trun (nonany_g d) (type_tokens t ++ r) = TSome t r.
Proof.
  induction d as [| d IH]; intros t r O NA L F.
  - destruct (type_head t O) as (w & r' & E & _). rewrite E in L. cbn in L. lia.
  - assert (N : no "?" r) by apply F.
    destruct t as [| o | u i n | u f n | s n | t n | t n | s t n | key t n | w n].
    + contradiction.
    + rewrite nonany_step, trun_app, trun_cons, (promise_round d IH); [reflexivity |]. destruct o as [t |]; [| exact I]. split; [exact O |]. cbn [type_tokens List.length] in L. rewrite app_length in L. cbn in L. lia.
    + rewrite nonany_step, trun_app, !trun_cons. unfold promise_g at 1. rewrite bind_none by (destruct u, i; reflexivity). rewrite integer_round by exact F. reflexivity.
    + rewrite nonany_step, trun_app, !trun_cons. unfold promise_g at 1. rewrite bind_none by (destruct u, f; reflexivity).
      replace (trun integer (type_tokens (TFloat u f n) ++ r)) with (@TNone ty) by (destruct u, f; reflexivity). rewrite floating_round by exact F. reflexivity.
    + cbn [type_tokens app]. rewrite nonany_step. apply named_ok in O. assert (I : In s names1 \/ In s names2) by (apply in_app_iff, O).
      assert (Ws : wordt (tx s)) by (destruct I as [I | I]; [pose proof names1_word as X | pose proof names2_word as X]; rewrite Forall_forall in X; apply X, I).
      assert (M1 : trun (alts [promise_g d; integer; floating]) (W s :: flag n (P "?") ++ r) = TNone).
      {
        assert (X : forall q, forallb (fun a => negb (String.eqb a q)) all_names = true -> eqt (tx q) (tx s) = false) by (intros q J; apply eqt_neq; intros E; apply tx_inj in E; exact (not_in _ _ _ J O (eq_sym E))).
        rewrite !trun_cons. unfold promise_g at 1. rewrite bind_none by (rewrite tkW by exact Ws; rewrite X by reflexivity; reflexivity).
        unfold W. rewrite integer_miss by (try exact Ws; apply X; reflexivity). rewrite floating_miss by (try exact Ws; apply X; reflexivity). reflexivity. }
      rewrite trun_app, M1, trun_app. destruct I as [I | I].
      * rewrite (named_hit names1 s _ n r names1_word I (null_round n r N)). reflexivity.
      * unfold W at 1. rewrite named_miss; [| exact Ws |].
        -- rewrite trun_app. replace (trun (alts [sequence_g d]) (W s :: flag n (P "?") ++ r)) with (@TNone ty).
           ++ rewrite trun_app, (named_hit names2 s _ n r names2_word I (null_round n r N)). reflexivity.
           ++ symmetry. rewrite trun_cons. unfold sequence_g. rewrite bind_none; [reflexivity |]. rewrite tkW by exact Ws. rewrite eqt_neq; [reflexivity |].
              intros E. apply tx_inj in E. exact (not_in names2 "sequence" s eq_refl I (eq_sym E)).
        -- intros a J E. apply tx_inj in E. subst a. clear -I J.
           assert (Q : forallb (fun a => forallb (fun b => negb (String.eqb a b)) names1) names2 = true) by reflexivity.
           rewrite forallb_forall in Q. specialize (Q s I). rewrite forallb_forall in Q. specialize (Q s J). rewrite String.eqb_refl in Q. discriminate Q.
    + cbn [type_tokens app] in *. rewrite nonany_step. change (W "sequence" :: ?x) with (Chunk (tx "sequence") :: x).
      rewrite trun_app. replace (trun (alts [promise_g d; integer; floating]) _) with (@TNone ty) by reflexivity.
      rewrite trun_app, named_miss; [| reflexivity | intros a J; refine (misses_in _ _ a _ J); reflexivity]. rewrite trun_app, trun_cons.
      rewrite (sequence_round d IH); [reflexivity | exact O | cbn [List.length] in L; rewrite app_length in L; cbn in L; lia | exact N].
    + cbn [type_tokens app] in *. rewrite nonany_step. change (W "FrozenArray" :: ?x) with (Chunk (tx "FrozenArray") :: x).
      rewrite trun_app. replace (trun (alts [promise_g d; integer; floating]) _) with (@TNone ty) by reflexivity.
      rewrite trun_app, named_miss; [| reflexivity | intros a J; refine (misses_in _ _ a _ J); reflexivity].
      rewrite trun_app. replace (trun (alts [sequence_g d]) _) with (@TNone ty) by reflexivity.
      rewrite trun_app, named_miss; [| reflexivity | intros a J; refine (misses_in _ _ a _ J); reflexivity]. rewrite trun_cons.
      rewrite (frozen_round d IH); [reflexivity | exact O | cbn [List.length] in L; rewrite app_length in L; cbn in L; lia | exact N].
    + cbn [type_tokens app] in *. rewrite nonany_step. change (W "record" :: ?x) with (Chunk (tx "record") :: x).
      rewrite trun_app. replace (trun (alts [promise_g d; integer; floating]) _) with (@TNone ty) by reflexivity.
      rewrite trun_app, named_miss; [| reflexivity | intros a J; refine (misses_in _ _ a _ J); reflexivity].
      rewrite trun_app. replace (trun (alts [sequence_g d]) _) with (@TNone ty) by reflexivity.
      rewrite trun_app, named_miss; [| reflexivity | intros a J; refine (misses_in _ _ a _ J); reflexivity]. rewrite trun_cons.
      replace (trun (frozen_g d) _) with (@TNone ty) by reflexivity. rewrite trun_cons.
      rewrite (record_string_round d IH); [reflexivity | apply O | apply O | cbn [List.length] in L; rewrite app_length in L; cbn in L; lia | exact N].
    + cbn [type_tokens app] in *. rewrite nonany_step. change (W "record" :: ?x) with (Chunk (tx "record") :: x).
      rewrite trun_app. replace (trun (alts [promise_g d; integer; floating]) _) with (@TNone ty) by reflexivity.
      rewrite trun_app, named_miss; [| reflexivity | intros a J; refine (misses_in _ _ a _ J); reflexivity].
      rewrite trun_app. replace (trun (alts [sequence_g d]) _) with (@TNone ty) by reflexivity.
      rewrite trun_app, named_miss; [| reflexivity | intros a J; refine (misses_in _ _ a _ J); reflexivity]. rewrite trun_cons.
      replace (trun (frozen_g d) _) with (@TNone ty) by reflexivity. rewrite trun_cons. destruct O as (K & Ok & O).
      rewrite (record_round d IH); [reflexivity | exact K | exact Ok | exact O | | | exact N]; cbn [List.length] in L; rewrite app_length in L; cbn in L; rewrite app_length in L; cbn in L; lia.
    + cbn [type_tokens app] in *. rewrite nonany_step. change (name w) with (Chunk (nm w)). pose proof (nm_word w O) as Ww.
      assert (X : forall q, known q = true -> eqt (tx q) (nm w) = false) by (intros q K; apply free_eqt; [apply nm_free | apply known_in, K]).
      rewrite trun_app, !trun_cons. unfold promise_g at 1. rewrite kw_none by (try exact Ww; apply X; reflexivity).
      rewrite integer_miss by (try exact Ww; apply X; reflexivity). rewrite floating_miss by (try exact Ww; apply X; reflexivity).
      change (trun (alts []) ?x) with (@TNone ty). cbv iota beta.
      assert (M : forall l, forallb known l = true -> forall s, In s l -> tx s <> nm w).
      { intros l K s J E. rewrite forallb_forall in K. specialize (X s (K s J)). rewrite E, eqt_refl in X. discriminate X. }
      rewrite trun_app, named_miss by (try exact Ww; apply M; reflexivity). rewrite trun_app, trun_cons. unfold sequence_g at 1.
      rewrite kw_none by (try exact Ww; apply X; reflexivity). change (trun (alts []) ?x) with (@TNone ty). cbv iota beta.
      rewrite trun_app, named_miss by (try exact Ww; apply M; reflexivity). rewrite !trun_cons. unfold frozen_g at 1, record_g at 1.
      rewrite !kw_none by (try exact Ww; apply X; reflexivity). unfold plain_g. rewrite trun_bind. change (Chunk (nm w)) with (name w). rewrite tident by exact O.
      rewrite trun_bind, null_round by exact N. reflexivity.
Qed.
Lemma type_round : forall d t r, type_ok t -> List.length (type_tokens t) <= d -> follow r -> trun (type_g d) (type_tokens t ++ r) = TSome t r.
Proof. intros d t r O L F. exact (any_or_round d (nonany_round d) t r O L F). Qed.
Lemma return_round : forall d o r, return_ok o -> List.length (return_tokens o) <= d -> follow r -> trun (return_g d) (return_tokens o ++ r) = TSome o r.
Proof.
  intros d [t |] r O L F; [| reflexivity]. unfold return_g. cbn [return_tokens]. rewrite trun_alt, bind_none by (apply type_miss; [now left | apply O; reflexivity]).
  rewrite trun_bind, type_round; [reflexivity | apply O; reflexivity | exact L | exact F].
Qed.
