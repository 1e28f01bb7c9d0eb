From Verif Require Import Base Utf8 Meta_Types Meta_Model Meta_Spec Meta_Refute Src_Model Src_Spec.
Open Scope Z_scope.

(** * Plumbing *)
Lemma bind_some {A B} (o : option A) (f : A -> option B) y :
  Src_Model.bind o f = Some y -> exists x, o = Some x /\ f x = Some y.
Proof. destruct o as [x|]; cbn; [eauto | discriminate]. Qed.
Ltac step H := 
  let x := fresh "x" in let E := fresh "E" in
  apply bind_some in H; destruct H as (x & E & H).
Tactic Notation "step" hyp(H) "as" ident(x) ident(E) :=
  apply bind_some in H; destruct H as (x & E & H).

Lemma guard_some b u : guard b = Some u -> b = true.
Proof. destruct b; cbn; congruence. Qed.

Lemma traverse_forall2 {A B} (f : A -> option B) l ys :
  traverse f l = Some ys -> Forall2 (fun x y => f x = Some y) l ys.
Proof.
  revert ys. induction l as [|x l IH]; cbn [traverse]; intros ys H.
  - injection H as <-. constructor.
  - step H as y E. step H as zs F. injection H as <-. constructor; auto.
Qed.

(** Two traversals of one list, element by element. *)
Lemma traverse_two {A B C} (f : A -> option B) (g : A -> option C) (P : A -> Prop) (Q : B -> Prop)
    (R : B -> C -> Prop) l bs cs :
  (forall x b c, P x -> Q b -> f x = Some b -> g x = Some c -> R b c) ->
  (forall x, In x l -> P x) -> Forall Q bs ->
  traverse f l = Some bs -> traverse g l = Some cs -> Forall2 R bs cs.
Proof.
  intros S. revert bs cs. induction l as [|x l IH]; cbn [traverse]; intros bs cs HP HQ F G.
  - injection F as <-. injection G as <-. constructor.
  - step F as b Eb. step F as bs' Ebs. injection F as <-.
    step G as c Ec. step G as cs' Ecs. injection G as <-.
    inversion HQ as [|? ? Qb Qbs]; subst.
    constructor.
    + apply (S x); auto. apply HP. left. reflexivity.
    + apply IH; auto. intros y I. apply HP. right. exact I.
Qed.

Lemma bytes_eqb_eq a b : bytes_eqb a b = true -> a = b.
Proof. destruct (bytes_eqb_spec a b); congruence. Qed.
Lemma bytes_eqb_refl a : bytes_eqb a a = true.
Proof. destruct (bytes_eqb_spec a a); congruence. Qed.
Lemma ident_eqb_eq a b : ident_eqb a b = true -> a = b.
Proof.
  unfold ident_eqb. intros H. apply andb_true_iff in H. destruct H as [H G].
  apply bytes_eqb_eq in H. apply eqb_prop in G. destruct a, b; cbn in *; congruence.
Qed.
Lemma ident_eqb_refl a : ident_eqb a a = true.
Proof. unfold ident_eqb. rewrite bytes_eqb_refl. destruct (id_raw a); reflexivity. Qed.

(** * Attributes *)
Section Attrs.
Context {A S : Type} (one : arg -> option A) (merge : A -> A -> option A)
        (stp : bool -> arg -> S -> option S) (R : A -> S -> Prop).
Hypothesis sim : forall last a x acc acc' s s',
  one a = Some x -> merge acc x = Some acc' -> stp last a s = Some s' -> R acc s -> R acc' s'.

Lemma pieces_sim comma l : forall acc s r s',
  R acc s -> m_pieces one merge acc l = Some r -> s_pieces stp comma l s = Some s' -> R r s'.
Proof.
  induction l as [|a l IH]; cbn [m_pieces s_pieces]; intros acc s r s' H M P.
  - injection M as <-. injection P as <-. exact H.
  - step M as x Ex. step M as acc' Em. step P as t Et.
    exact (IH _ _ _ _ (sim _ _ _ _ _ _ _ Ex Em Et H) M P).
Qed.

Hypothesis assoc : forall a b c bc abc,
  merge b c = Some bc -> merge a bc = Some abc ->
  exists ab, merge a b = Some ab /\ merge ab c = Some abc.

Lemma pieces_from a l : forall b x r,
  m_pieces one merge b l = Some x -> merge a x = Some r ->
  exists ab, merge a b = Some ab /\ m_pieces one merge ab l = Some r.
Proof.
  induction l as [|c l IH]; cbn [m_pieces]; intros b x r M H.
  - injection M as <-. exists r. auto.
  - step M as y Ey. step M as by_ Eby.
    destruct (IH _ _ _ M H) as (aby & E1 & E2).
    destruct (assoc _ _ _ _ _ Eby E1) as (ab & F1 & F2).
    exists ab. split; [exact F1|]. rewrite Ey. cbn. rewrite F2. exact E2.
Qed.

Variable empty : A.
Hypothesis right_id : forall a b, merge a empty = Some b -> b = a.

Lemma uniffi_sim l : forall acc s r s',
  R acc s -> m_uniffi one merge empty acc l = Some r -> s_attrs pick_uniffi stp l s = Some s' ->
  R r s'.
Proof.
  induction l as [|a l IH]; cbn [m_uniffi s_attrs]; intros acc s r s' H M P.
  - injection M as <-. injection P as <-. exact H.
  - step P as t Et.
    destruct a; cbn [pick_uniffi] in Et;
      try (injection Et as <-; exact (IH _ _ _ _ H M P)); try discriminate M.
    step M as x Ex. step M as acc' Em.
    destruct (pieces_from _ _ _ _ _ Ex Em) as (ab & E1 & E2).
    apply right_id in E1. subst ab.
    exact (IH _ _ _ _ (pieces_sim _ _ _ _ _ _ H E2 Et) M P).
Qed.
End Attrs.

Lemma either_assoc {T} (a b c bc abc : option T) :
  either b c = Some bc -> either a bc = Some abc ->
  exists ab, either a b = Some ab /\ either ab c = Some abc.
Proof.
  destruct a, b, c; cbn; intros H G; try discriminate;
    injection H as <-; cbn in G; try discriminate; injection G as <-; eexists; split; reflexivity.
Qed.
Lemma either_none {T} (a b : option T) : either a None = Some b -> b = a.
Proof. destruct a; cbn; congruence. Qed.

Lemma name_sim l n n' : m_name l = Some n -> s_name l = Some n' -> n = n'.
Proof.
  intros M P. unfold m_name, s_name in *.
  refine (uniffi_sim one_name either s_name_step eq _ (@either_assoc _) None (@either_none _)
            l None None n n' eq_refl M P).
  intros last a x acc acc' s s' O E T ->. destruct a; try discriminate.
  cbn in *. injection O as <-. injection T as <-. destruct s; cbn in E; congruence.
Qed.

Lemma field_sim l a a' :
  m_uniffi one_field merge_field (None, None) (None, None) l = Some a ->
  s_attrs pick_uniffi s_field_step l (None, None) = Some a' -> a = a'.
Proof.
  intros M P.
  refine (uniffi_sim one_field merge_field s_field_step eq _ _ (None, None) _
            l (None, None) (None, None) a a' eq_refl M P).
  - intros last g x acc acc' s s' O E T ->. unfold merge_field in E.
    step E as d Ed. step E as n En. injection E as <-.
    destruct s as [sd sn]; destruct g; cbn in O; try discriminate; injection O as <-; cbn in *.
    + injection T as <-. apply either_none in Ed. destruct sn; cbn in En; congruence.
    + apply either_none in En. subst n. destruct sd; cbn in *; try discriminate.
      destruct v; [congruence|]. destruct last; congruence.
  - intros x y z yz xyz H G. unfold merge_field in *.
    step H as d1 E1. step H as n1 F1. injection H as <-. cbn [fst snd] in G.
    step G as d2 E2. step G as n2 F2. injection G as <-.
    destruct (either_assoc _ _ _ _ _ E1 E2) as (u & U1 & U2).
    destruct (either_assoc _ _ _ _ _ F1 F2) as (w & W1 & W2).
    exists (u, w). rewrite U1, W1. cbn. rewrite U2, W2. auto.
  - intros [d n] y H. unfold merge_field in H. cbn in H.
    step H as u E. step H as w F. injection H as <-.
    apply either_none in E. apply either_none in F. congruence.
Qed.

Definition enum_rel (a : eargs) (s : option str * bool) : Prop :=
  ea_name a = fst s /\ is_some (ea_flat a) = snd s.
Lemma enum_sim error l a a' :
  m_uniffi one_enum merge_enum (EA None None None) (EA None None None) l = Some a ->
  s_attrs pick_uniffi (s_enum_step error) l (None, false) = Some a' -> enum_rel a a'.
Proof.
  intros M P.
  refine (uniffi_sim one_enum merge_enum (s_enum_step error) enum_rel _ _ (EA None None None) _
            l (EA None None None) (None, false) a a' _ M P).
  - intros last g x acc acc' s s' O E T [H1 H2]. unfold merge_enum in E.
    step E as f Ef. step E as t Et. step E as n En. injection E as <-.
    destruct s as [sn sf], acc as [f0 t0 n0]; cbn in H1, H2; subst sn sf.
    destruct g; cbn in O; try discriminate.
    + injection O as <-. cbn in *. injection T as <-.
      apply either_none in Ef. split; cbn; [destruct n0; cbn in En; congruence | congruence].
    + destruct f1; try discriminate; injection O as <-; cbn in *; try discriminate.
      destruct error; [|discriminate]. injection T as <-. apply either_none in En.
      split; cbn; [congruence|]. destruct f0; cbn in Ef; [discriminate|].
      injection Ef as <-. reflexivity.
  - intros x y z yz xyz H G. unfold merge_enum in *.
    step H as d1 E1. step H as k1 K1. step H as n1 F1. injection H as <-. cbn in G.
    step G as d2 E2. step G as k2 K2. step G as n2 F2. injection G as <-.
    destruct (either_assoc _ _ _ _ _ E1 E2) as (u & U1 & U2).
    destruct (either_assoc _ _ _ _ _ K1 K2) as (v & V1 & V2).
    destruct (either_assoc _ _ _ _ _ F1 F2) as (w & W1 & W2).
    exists (EA u v w). rewrite U1, V1, W1. cbn. rewrite U2, V2, W2. auto.
  - intros [f t n] y H. unfold merge_enum in H. cbn in H.
    step H as u E. step H as v V. step H as w F. injection H as <-.
    apply either_none in E. apply either_none in V. apply either_none in F. congruence.
  - split; reflexivity.
Qed.

(** * Documentation *)
Lemma join_cons c s ds : join ((c ++ [x0a] ++ s) :: ds) = join (c :: s :: ds).
Proof.
  destruct ds as [|d ds]; [reflexivity|].
  change ((c ++ [x0a] ++ s) ++ [x0a] ++ join (d :: ds) = c ++ [x0a] ++ s ++ [x0a] ++ join (d :: ds)).
  rewrite <- !app_assoc. reflexivity.
Qed.
Definition doc_step cur (a : attr) : option str :=
  match a with
  | AtDoc s => Some (match cur with None => s | Some c => c ++ [x0a] ++ s end)
  | _ => cur
  end.
Lemma doc_from l : forall ds c,
  m_docs l = Some ds -> fold_left doc_step l (Some c) = Some (join (c :: ds)).
Proof.
  induction l as [|a l IH]; intros ds c H; cbn [m_docs] in H.
  - injection H as <-. reflexivity.
  - cbn [fold_left]. destruct a; cbn [doc_step];
      try (apply IH; exact H); try discriminate H.
    step H as es Es. injection H as <-. rewrite (IH _ _ Es), join_cons. reflexivity.
Qed.
Lemma doc_none l : forall ds,
  m_docs l = Some ds ->
  fold_left doc_step l None = match ds with [] => None | _ => Some (join ds) end.
Proof.
  induction l as [|a l IH]; intros ds H; cbn [m_docs] in H.
  - injection H as <-. reflexivity.
  - cbn [fold_left]. destruct a; cbn [doc_step];
      try (apply IH; exact H); try discriminate H.
    step H as es Es. injection H as <-. apply doc_from, Es.
Qed.
Lemma doc_sim l o : m_doc l = Some o -> like_doc o (s_doc l).
Proof.
  unfold m_doc. intros H. step H as ds E. injection H as <-.
  unfold like_doc. change (s_doc l) with (fold_left doc_step l None). rewrite (doc_none _ _ E).
  destruct ds as [|d ds]; [reflexivity|]. cbn [get_or].
  destruct (join (d :: ds)); reflexivity.
Qed.

(** * Default values *)
Lemma strip_base t : (forall mp n b, base_type t <> TCustom mp n b) -> strip_custom t = base_type t.
Proof.
  destruct t; cbn; try reflexivity. intros H.
  match goal with |- strip_custom ?u = _ => destruct u end; try reflexivity.
  exfalso. eapply H. reflexivity.
Qed.
Lemma unwrap_base t : unwrap_custom t = base_type t.
Proof. destruct t; reflexivity. Qed.

Lemma int_sim t z l l' :
  number (unwrap_custom t) z = l -> lit_ok t l ->
  match strip_custom t with
  | TI8 | TI16 | TI32 | TI64 => if in_i64 z then Some (LInt z Decimal_ (strip_custom t)) else None
  | TU8 | TU16 | TU32 | TU64 => if in_u64 z then Some (LUInt z Decimal_ (strip_custom t)) else None
  | _ => None
  end = Some l' -> l = l'.
Proof.
  intros N K S. rewrite unwrap_base in N.
  assert (C : forall mp n b, base_type t <> TCustom mp n b).
  { intros mp n b E. rewrite E in N. cbn in N. subst l. cbn [lit_ok] in K.
    destruct K as (_ & (k & K & _) & _). discriminate K. }
  rewrite (strip_base t C) in S.
  destruct (base_type t) eqn:B; try discriminate S;
    try (destruct (in_i64 z); [|discriminate S]; injection S as <-; cbn in N; congruence);
    try (destruct (in_u64 z) eqn:U; [|discriminate S]; injection S as <-; cbn in N; try congruence).
  destruct (z <? 0) eqn:L; [|congruence].
  unfold in_u64 in U. apply andb_true_iff in U. destruct U as [U _].
  apply Z.leb_le in U. apply Z.ltb_lt in L. clear - U L. lia.
Qed.

Lemma s_value_step t v :
  s_value t v =
  match v with
  | VNone => Some LNone
  | VSome v =>
      match strip_custom t with
      | TOption u => Src_Model.bind (s_value u v) (fun l => Some (LSome (DLit l)))
      | _ => None
      end
  | VEmpty => Some LEmptySeq
  | VInt z _ =>
      match strip_custom t with
      | TI8 | TI16 | TI32 | TI64 => if in_i64 z then Some (LInt z Decimal_ (strip_custom t)) else None
      | TU8 | TU16 | TU32 | TU64 => if in_u64 z then Some (LUInt z Decimal_ (strip_custom t)) else None
      | _ => None
      end
  | VFloat s _ =>
      match strip_custom t with TF32 | TF64 => Some (LFloat s (strip_custom t)) | _ => None end
  | VStr s => match strip_custom t with TString => Some (LString s) | _ => None end
  | VBool b => match strip_custom t with TBool => Some (LBool b) | _ => None end
  | VOther => None
  end.
Proof. destruct v; reflexivity. Qed.

Lemma value_sim v : forall t l l',
  m_value t v = Some l -> lit_ok t l -> s_value t v = Some l' -> l = l'.
Proof.
  induction v as [|v IH| |z sfx|s sfx|s|b|]; intros t l l' M K S;
    rewrite s_value_step in S; cbn [m_value] in M.
  - congruence.
  - step M as k Ek. injection M as <-. cbn [lit_ok] in K. destruct K as (u & Eu & K).
    rewrite strip_base in S by (intros; congruence).
    unfold inner_type in Ek. rewrite unwrap_base in Ek. rewrite Eu in Ek, S.
    step S as k' Ek'. injection S as <-. f_equal. f_equal. exact (IH _ _ _ Ek K Ek').
  - congruence.
  - destruct sfx; [discriminate|]. injection M as M. exact (int_sim _ _ _ _ M K S).
  - destruct sfx; [discriminate|]. injection M as <-. cbn [lit_ok] in K.
    destruct K as (E & T & _). rewrite strip_base in S
      by (intros mp n b F; rewrite <- E, F in *; destruct T; discriminate).
    rewrite unwrap_base in *. destruct T as [T | T]; rewrite T in S; congruence.
  - destruct (strip_custom t); congruence.
  - destruct (strip_custom t); congruence.
  - discriminate.
Qed.

Lemma default_sim t o r r' :
  m_opt_default t o = Some r -> opt_all (default_ok t) r -> s_opt_default t o = Some r' -> r = r'.
Proof.
  destruct o as [v|]; cbn [m_opt_default s_opt_default]; [|congruence].
  intros M K S. step M as x Ex. injection M as <-. step S as y Ey. injection S as <-.
  cbn [opt_all] in K. f_equal. destruct v as [v|]; cbn [m_default s_default] in *; [|congruence].
  step Ex as l El. injection Ex as <-. step Ey as l' El'. injection Ey as <-.
  f_equal. exact (value_sim _ _ _ _ El K El').
Qed.

(** * Fields, variants *)
Lemma pieces_unnamed l : forall (acc : option (option dval) * option str) r,
  (forall n, ~ In (AName n) l) -> m_pieces one_field merge_field acc l = Some r -> snd r = snd acc.
Proof.
  induction l as [|a l IH]; cbn [m_pieces]; intros acc r U M.
  - congruence.
  - step M as x Ex. step M as acc' E.
    rewrite (IH acc' r); [|intros n I; exact (U n (or_intror I))|exact M].
    destruct a; cbn in Ex; try discriminate.
    + exfalso. eapply U. left. reflexivity.
    + injection Ex as <-. unfold merge_field in E. step E as d Ed. step E as n En.
      injection E as <-. cbn [fst snd] in *. apply either_none in En. exact En.
Qed.
Lemma unrenamed_field l : forall acc r,
  unrenamed l -> m_uniffi one_field merge_field (None, None) acc l = Some r -> snd r = snd acc.
Proof.
  induction l as [|a l IH]; cbn [m_uniffi]; intros acc r U M.
  - congruence.
  - assert (Ul : unrenamed l) by (intros b n I; exact (U b n (or_intror I))).
    destruct a; try exact (IH _ _ Ul M); try discriminate M.
    step M as x Ex. step M as acc' E. rewrite (IH _ _ Ul M).
    assert (X : snd x = None).
    { apply (pieces_unnamed _ _ _ (fun n => U a n (or_introl eq_refl)) Ex). }
    unfold merge_field in E. step E as d Ed. step E as n En. injection E as <-.
    rewrite X in En. apply either_none in En. exact En.
Qed.

Lemma field_like d named f b c :
  plain_field f -> field_ok d b -> m_field named f = Some b -> s_field f = Some c ->
  like_field eq b c.
Proof.
  intros P K M S. unfold m_field, s_field in *.
  step M as a Ea. step M as u Eu. step M as doc Edoc. step M as df Edf. injection M as <-.
  step S as a' Ea'. step S as df' Edf'. injection S as <-.
  pose proof (field_sim _ _ _ Ea Ea') as <-.
  destruct K as (_ & _ & _ & K & _). cbn [fd_ty fd_default] in K.
  unfold like_field. cbn [fd_name fd_orig fd_ty fd_default fd_doc].
  split; [|split; [reflexivity|split]].
  - unfold like_names. split; [reflexivity|].
    destruct P as [P | P].
    + destruct (sf_id f); [|congruence]. destruct (snd a); reflexivity.
    + rewrite (unrenamed_field _ _ _ P Ea). destruct (sf_id f); reflexivity.
  - exact (default_sim _ _ _ _ Edf K Edf').
  - exact (doc_sim _ _ Edoc).
Qed.
Lemma named_plain f b : m_field true f = Some b -> plain_field f.
Proof.
  unfold m_field. intros M. step M as a Ea. step M as u Eu. apply guard_some in Eu.
  left. destruct (sf_id f); [congruence | discriminate Eu].
Qed.
Lemma fields_like d named fs bs cs :
  (forall f, In f fs -> plain_field f) -> Forall (field_ok d) bs ->
  traverse (m_field named) fs = Some bs -> traverse s_field fs = Some cs ->
  Forall2 (like_field eq) bs cs.
Proof.
  intros P K M S.
  exact (traverse_two _ _ plain_field (field_ok d) _ _ _ _
           (fun x b c p k => field_like d named x b c p k) P K M S).
Qed.

Lemma names_like p i n : own_name p i ->
  fst (names p i n) = get_or n (unraw i) /\
  like_names (get_or n (unraw i)) (m_orig i n) (fst (names p i n)) (snd (names p i n)).
Proof.
  intros [R A]. unfold names, ident_string, m_orig, unraw. rewrite R.
  destruct A as [-> | ->]; cbn [fst snd].
  - split; [reflexivity|]. split; [reflexivity|]. destruct n; reflexivity.
  - split; [reflexivity|]. split; [reflexivity|]. destruct n as [n|]; cbn [get_or].
    + destruct (bytes_eqb_spec n (id_name i)) as [->|]; reflexivity.
    + rewrite bytes_eqb_refl. reflexivity.
Qed.
Lemma orig_like i n :
  like_names (get_or n (unraw i)) (m_orig i n) (get_or n (unraw i)) (m_orig i n).
Proof. split; reflexivity. Qed.

Lemma record_like d p i l fs r r' :
  own_name p i -> recordable d (MRecord r) -> m_record (pl_here p) i l fs = Some r ->
  s_record p i l fs = Some r' -> like_record eq (pl_here p) (pl_pub p) r r' /\ r_name r = r_name r'.
Proof.
  intros Pl K M S. unfold m_record, s_record in *.
  step M as n En. step M as doc Ed. step M as bs Eb. injection M as <-.
  step S as n' En'. step S as cs Ec. injection S as <-.
  pose proof (name_sim _ _ _ En En') as <-.
  destruct (names_like p i n Pl) as [N1 N2].
  destruct K as (_ & _ & _ & K & _). cbn [r_fields] in K.
  split; [|cbn [r_name]; congruence].
  unfold like_record. cbn [r_mp r_name r_orig r_fields r_doc].
  split; [reflexivity|split; [reflexivity|split; [exact N2|split]]].
  - apply (fields_like d true fs); auto.
    intros f I. apply traverse_forall2 in Eb. clear - I Eb.
    induction Eb as [|x y xs ys H _ IH]; [destruct I|].
    destruct I as [<- | I]; [exact (named_plain _ _ H) | exact (IH I)].
  - exact (doc_sim _ _ Ed).
Qed.

(** The integer type of an enum. *)
Definition repr_step (acc : option repr) (a : attr) : option repr :=
  match a with
  | AtRepr rs => fold_left (fun _ r => match r with ROther => None | _ => Some r end) rs acc
  | _ => acc
  end.
Lemma reprs_sim rs : forall t t' ,
  s_reprs rs t = Some t' ->
  fold_left (fun _ r => match r with ROther => None | _ => Some r end) rs (option_map RTy t)
  = option_map RTy t' /\ (rs <> [] -> t' <> None).
Proof.
  induction rs as [|r rs IH]; intros t t' H; cbn [s_reprs fold_left] in *.
  - injection H as <-. split; [reflexivity|congruence].
  - destruct r as [u| |]; try discriminate. destruct (IH _ _ H) as [A B].
    split; [exact A|]. intros _. destruct rs; [|apply B; discriminate].
    cbn in H. congruence.
Qed.
Lemma reprs_grow rs : forall t t', s_reprs rs t = Some t' -> t <> None -> t' <> None.
Proof.
  induction rs as [|r rs IH]; intros t t' H N; cbn [s_reprs] in H.
  - congruence.
  - destruct r; try discriminate. apply (IH _ _ H). discriminate.
Qed.
Lemma repr_sim l : forall t t', s_repr l t = Some t' ->
  fold_left repr_step l (option_map RTy t) = option_map RTy t'.
Proof.
  induction l as [|a l IH]; intros t t' H; cbn [s_repr fold_left] in *.
  - congruence.
  - destruct a; try exact (IH _ _ H). step H as u Eu.
    cbn [repr_step]. rewrite (proj1 (reprs_sim _ _ _ Eu)). exact (IH _ _ H).
Qed.
Lemma repr_grow l : forall t t', s_repr l t = Some t' -> t <> None -> t' <> None.
Proof.
  induction l as [|a l IH]; intros t t' H N; cbn [s_repr] in H.
  - congruence.
  - destruct a; try exact (IH _ _ H N). step H as u Eu.
    exact (IH _ _ H (reprs_grow _ _ _ Eu N)).
Qed.
Lemma repr_some l : forall t t' rs,
  s_repr l t = Some t' -> In (AtRepr rs) l -> rs <> [] -> t' <> None.
Proof.
  induction l as [|a l IH]; intros t t' rs H I N; [destruct I|].
  cbn [s_repr] in H. destruct I as [-> | I].
  - step H as u Eu. apply (repr_grow _ _ _ H). apply (reprs_sim _ _ _ Eu), N.
  - destruct a; try exact (IH _ _ _ H I N). step H as u Eu. exact (IH _ _ _ H I N).
Qed.
Lemma repr_none l t : (forall rs, ~ In (AtRepr rs) l) -> s_repr l t = Some t.
Proof.
  revert t. induction l as [|a l IH]; intros t N; cbn [s_repr]; [reflexivity|].
  assert (N' : forall rs, ~ In (AtRepr rs) l) by (intros rs I; exact (N rs (or_intror I))).
  destruct a; try exact (IH _ N'). exfalso. exact (N _ (or_introl eq_refl)).
Qed.

Lemma discr_like t d o o' :
  (d = None \/ t <> None) -> m_discr d = Some o -> s_discr t d = Some o' ->
  option_map lit_number o = option_map lit_number o'.
Proof.
  intros P M S. destruct d as [x|].
  2:{ cbn in M, S. injection M as <-. destruct t; injection S as <-; reflexivity. }
  destruct P as [P | P]; [discriminate P|]. destruct t as [t|]; [|congruence].
  assert (L : forall z, option_map lit_number (Some (number TU64 z)) = Some (Some z)).
  { intros z. cbn [number option_map]. destruct (z <? 0); reflexivity. }
  destruct x as [z|z|]; cbn [m_discr s_discr] in M, S; [| |discriminate].
  - assert (E : o = Some (number TU64 z)) by congruence. rewrite E, L.
    destruct (is_signed t); [destruct (in_i64 z) | destruct (in_u64 z)]; try discriminate;
      injection S as <-; reflexivity.
  - assert (E : o = Some (number TU64 (- z))) by congruence. rewrite E, L.
    destruct (is_signed t && in_i64 z); [|discriminate]. injection S as <-. reflexivity.
Qed.

Lemma variant_like d t v b c :
  (sv_discr v = None \/ t <> None) /\ (forall f, In f (sv_fields v) -> plain_field f) ->
  variant_ok d b -> m_variant v = Some b -> s_variant false t v = Some c -> like_variant eq b c.
Proof.
  intros [Pd Pf] K M S. unfold m_variant, s_variant in *.
  step M as bs Eb. step M as n En. step M as x Ex. step M as doc Ed. injection M as <-.
  step S as n' En'. step S as x' Ex'. step S as u Eu. step S as cs Ec. injection S as <-.
  pose proof (name_sim _ _ _ En En') as <-.
  destruct K as (_ & _ & _ & K & _). cbn [v_fields] in K.
  unfold like_variant. cbn [v_name v_orig v_discr v_fields v_doc].
  split; [apply orig_like|split; [|split]].
  - exact (discr_like _ _ _ _ Pd Ex Ex').
  - exact (fields_like d false _ _ _ Pf K Eb Ec).
  - exact (doc_sim _ _ Ed).
Qed.
Lemma flat_variant_like v b c :
  sv_discr v = None -> m_flat_variant v = Some b -> s_variant true None v = Some c ->
  like_variant eq b c.
Proof.
  intros Pd M S. unfold m_flat_variant, s_variant in *.
  step M as n En. step M as doc Ed. injection M as <-.
  step S as n' En'. step S as x' Ex'. step S as u Eu. step S as cs Ec. injection S as <-.
  injection Ec as <-. rewrite Pd in Ex'. injection Ex' as <-.
  pose proof (name_sim _ _ _ En En') as <-.
  unfold like_variant. cbn [v_name v_orig v_discr v_fields v_doc].
  split; [apply orig_like|split; [reflexivity|split; [constructor|exact (doc_sim _ _ Ed)]]].
Qed.

Lemma enum_like d p error i l vs e e' :
  own_name p i -> plain_variants error l vs -> recordable d (MEnum e) ->
  m_enum error (pl_here p) i l vs = Some e -> s_enum error p i l vs = Some e' ->
  like_enum eq (pl_here p) (pl_pub p) e e' /\ e_name e = e_name e'.
Proof.
  intros Pl [Pf Pv] K M S. unfold m_enum, s_enum in *.
  step M as a Ea. step M as doc Ed. step S as a' Ea'. step S as t Et. step S as cs Ec.
  injection S as <-. destruct (enum_sim error _ _ _ Ea Ea') as [N F].
  destruct a' as [n flat]. cbn [fst snd] in *. subst n flat.
  destruct (names_like p i (ea_name a) Pl) as [N1 N2].
  assert (FL : match ea_flat a with Some _ => true | None => false end = is_some (ea_flat a))
    by reflexivity.
  rewrite FL in M. clear FL.
  set (flat := is_some (ea_flat a)) in *. clearbody flat.
  assert (W : forall shape (bs : list variant) (doc : option str) t0,
    Forall2 (like_variant eq) bs cs -> t0 = t -> m_doc l = Some doc ->
    shape = (if error then ShError flat else ShEnum) ->
    let m := Enum (pl_here p) (get_or (ea_name a) (unraw i)) (m_orig i (ea_name a)) shape t0 bs
                  (m_non_exhaustive l) doc in
    let s := Enum (pl_pub p) (fst (names p i (ea_name a))) (snd (names p i (ea_name a)))
                  (if error then ShError flat else ShEnum) t cs (m_non_exhaustive l) (s_doc l) in
    like_enum eq (pl_here p) (pl_pub p) m s /\ e_name m = e_name s).
  { intros shape bs dc t0 H -> Hd -> m s. split; [|cbn; congruence].
    unfold like_enum. cbn [m s e_mp e_name e_orig e_shape e_discr_ty e_variants e_non_exhaustive e_doc].
    split; [reflexivity|split; [reflexivity|split; [exact N2|]]].
    split; [reflexivity|split; [reflexivity|split; [exact H|split; [reflexivity|]]]].
    exact (doc_sim _ _ Hd). }
  destruct error.
  - destruct Pv as [Pr Pd]. rewrite (repr_none l None Pr) in Et. injection Et as <-.
    step M as u Eu. step M as bs Eb. injection M as <-.
    destruct K as (_ & _ & _ & _ & _ & K). cbn [e_shape e_variants] in K.
    apply W; auto. destruct flat.
    + apply (traverse_two m_flat_variant (s_variant true None) (fun v => sv_discr v = None)
               (fun _ => True) _ vs bs cs); auto.
      * intros v b c Hv _. exact (flat_variant_like v b c Hv).
      * rewrite Forall_forall. auto.
    + apply (traverse_two m_variant (s_variant false None)
               (fun v => (sv_discr v = None \/ @None ty <> None) /\
                         (forall f, In f (sv_fields v) -> plain_field f))
               (variant_ok d) _ vs bs cs); auto.
      * exact (variant_like d None).
      * intros v I. split; [left; auto|]. intros f. apply Pf, I.
  - step M as u Eu. step M as t0 Et0. step M as bs Eb. injection M as <-.
    apply guard_some, andb_true_iff in Eu. destruct Eu as [Eu _].
    assert (FF : flat = false) by (destruct flat; [discriminate Eu | reflexivity]).
    rewrite FF in *.
    destruct K as (_ & _ & _ & _ & _ & K). cbn [e_shape e_variants] in K.
    apply W; auto.
    + apply (traverse_two m_variant (s_variant false t)
               (fun v => (sv_discr v = None \/ t <> None) /\
                         (forall f, In f (sv_fields v) -> plain_field f))
               (variant_ok d) _ vs bs cs); auto.
      * exact (variant_like d t).
      * intros v I. split; [|intros f; apply Pf, I].
        destruct Pv as [Pv | (rs & Ir & Nr)]; [left; auto|right].
        exact (repr_some _ _ _ _ Et Ir Nr).
    + change (m_repr l) with (fold_left repr_step l (option_map RTy None)) in Et0.
      rewrite (repr_sim _ _ _ Et) in Et0. destruct t; cbn in Et0; congruence.
Qed.

Lemma object_like p i l o o' :
  own_name p i -> m_object (pl_here p) i l = Some o -> s_object p i l = Some o' ->
  like_object (pl_here p) (pl_pub p) o o' /\ o_name o = o_name o'.
Proof.
  intros Pl M S. unfold m_object, s_object in *.
  step M as n En. step M as doc Ed. injection M as <-.
  step S as n' En'. injection S as <-.
  pose proof (name_sim _ _ _ En En') as <-. destruct (names_like p i n Pl) as [N1 N2].
  split; [|cbn [o_name]; congruence].
  unfold like_object. cbn [o_mp o_name o_orig o_imp o_doc].
  split; [reflexivity|split; [reflexivity|split; [exact N2|split; [reflexivity|]]]].
  exact (doc_sim _ _ Ed).
Qed.

(** * Functions *)
Definition fargs_rel (a s : fargs) : Prop :=
  fa_name a = fa_name s /\ fa_defs a = fa_defs s /\
  forall i, lookup_last i (fa_defs s) = lookup_first i (fa_defs s).

Lemma last_snoc j i v m :
  lookup_last j (m ++ [(i, v)]) = if ident_eqb j i then Some v else lookup_last j m.
Proof.
  induction m as [|[k w] m IH]; cbn [app lookup_last].
  - destruct (ident_eqb j i); reflexivity.
  - rewrite IH. destruct (ident_eqb j i); reflexivity.
Qed.
Lemma first_snoc j i v m :
  lookup_first j (m ++ [(i, v)]) =
  match lookup_first j m with
  | Some w => Some w
  | None => if ident_eqb j i then Some v else None
  end.
Proof.
  induction m as [|[k w] m IH]; cbn [app lookup_first]; [reflexivity|].
  destruct (ident_eqb j k); [reflexivity|exact IH].
Qed.
Lemma pairs_sim comma l : forall m m',
  s_pairs comma l m = Some m' -> (forall i, lookup_last i m = lookup_first i m) ->
  m' = m ++ l /\ forall i, lookup_last i m' = lookup_first i m'.
Proof.
  induction l as [|[i v] l IH]; intros m m' H E; cbn [s_pairs] in H.
  - injection H as <-. rewrite app_nil_r. auto.
  - step H as u Eu. step H as w Ew. apply guard_some in Eu.
    destruct (IH _ _ H) as [A B].
    + intros j. rewrite last_snoc, first_snoc, E.
      destruct (ident_eqb j i) eqn:J.
      * apply ident_eqb_eq in J. subst j. destruct (lookup_first i m); [discriminate Eu|reflexivity].
      * destruct (lookup_first j m); reflexivity.
    + split; [|exact B]. rewrite A, <- app_assoc. reflexivity.
Qed.

Lemma fn_step_sim last a x acc acc' s s' :
  one_fn a = Some x -> merge_fn acc x = Some acc' -> s_fn_step last a s = Some s' ->
  fargs_rel acc s -> fargs_rel acc' s'.
Proof.
  intros O E T (H1 & H2 & H3). unfold merge_fn in E.
  step E as r Er. step E as n En. injection E as <-.
  destruct a; cbn [one_fn] in O; try discriminate.
  - injection O as <-. cbn in *. injection T as <-. split; [|split]; cbn.
    + destruct (fa_name acc); cbn in En; congruence.
    + rewrite app_nil_r. exact H2.
    + exact H3.
  - destruct (pairs_ok comma l); [|discriminate]. injection O as <-.
    cbn [s_fn_step] in T. step T as m Em. injection T as <-. cbn [fa_name fa_defs] in *.
    destruct (pairs_sim _ _ _ _ Em H3) as [A B].
    split; [|split]; cbn [fa_name fa_defs].
    + apply either_none in En. congruence.
    + congruence.
    + exact B.
  - destruct (bytes_eqb s0 TOKIO); [|discriminate]. injection O as <-.
    cbn in *. injection T as <-. split; [|split]; cbn.
    + apply either_none in En. congruence.
    + rewrite app_nil_r. exact H2.
    + exact H3.
Qed.
Lemma fargs_pieces comma l r s' :
  m_pieces one_fn merge_fn no_fargs l = Some r -> s_pieces s_fn_step comma l no_fargs = Some s' ->
  fargs_rel r s'.
Proof.
  apply (pieces_sim one_fn merge_fn s_fn_step fargs_rel fn_step_sim).
  split; [|split]; reflexivity.
Qed.

Lemma param_like d ok defs defs' a q q' :
  (forall i, lookup_last i defs = lookup_first i defs') -> param_ok d q ->
  m_param defs a = Some q -> s_param ok defs' a = Some q' -> like_param eq q q'.
Proof.
  intros L K M S. destruct a as [arc|[i|] t pb self]; try discriminate.
  cbn [m_param s_param] in M, S. step M as x Ex. injection M as <-.
  step S as u Eu. step S as y Ey. injection S as <-.
  destruct K as (_ & _ & K). cbn [p_ty p_default] in K. rewrite L in Ex.
  unfold like_param. cbn [p_name p_ty p_pass p_default].
  split; [reflexivity|split; [reflexivity|split; [reflexivity|]]].
  exact (default_sim _ _ _ _ Ex K Ey).
Qed.

Lemma sig_like d here mp nm (receiver : bool) ok a a' f g g' rest :
  fargs_rel a a' -> Forall (param_ok d) (f_inputs g) ->
  (if receiver then exists arc, sn_args f = FReceiver arc :: rest else sn_args f = rest) ->
  like_names (get_or (fa_name a) (unraw (sn_id f))) (m_orig (sn_id f) (fa_name a)) (fst nm) (snd nm) ->
  m_sig here receiver a f = Some g -> s_sig mp nm ok a' f rest = Some g' ->
  like_fn eq here mp g g'.
Proof.
  intros (R1 & R2 & R3) K A N M S. unfold m_sig, s_sig in *.
  step M as doc Ed. step M as rest' Er. step M as ps Ep. step M as u1 E1. step M as u2 E2.
  step M as u3 E3. injection M as <-. step S as qs Eq. injection S as <-.
  assert (rest' = rest) as ->.
  { destruct receiver.
    - destruct A as [arc A]. rewrite A in Er. congruence.
    - congruence. }
  cbn [f_inputs] in K.
  unfold like_fn. cbn [f_mp f_name f_orig f_async f_inputs f_ret f_throws f_doc].
  split; [reflexivity|split; [reflexivity|split; [exact N|split; [reflexivity|split]]]].
  - refine (traverse_two _ _ (fun _ => True) (param_ok d) _ rest ps qs _ (fun _ _ => I) K Ep Eq).
    intros x b c _ Kb. apply (param_like d). 2: exact Kb.
    intros j. rewrite R2. apply R3.
  - split; [reflexivity|split; [reflexivity|]]. exact (doc_sim _ _ Ed).
Qed.

Lemma exports_none {S} (stp : bool -> arg -> S -> option S) l s :
  exports l = [] -> s_attrs pick_export stp l s = Some s.
Proof.
  induction l as [|a l IH]; cbn [exports s_attrs]; intros H; [reflexivity|].
  destruct a; cbn [pick_export Src_Model.bind]; try exact (IH H). discriminate.
Qed.
Lemma exports_one {S} (stp : bool -> arg -> S -> option S) l s e :
  m_export l = Some e ->
  s_attrs pick_export stp l s =
  match e with Some a => s_pieces stp (ag_comma a) (ag_list a) s | None => Some s end.
Proof.
  unfold m_export. induction l as [|a l IH]; cbn [exports s_attrs]; intros H; [discriminate|].
  destruct a as [x| |x|x|x|x| | |x| |]; cbn [pick_export Src_Model.bind]; try exact (IH H).
  destruct (exports l) eqn:X; [|discriminate]. injection H as <-.
  destruct x as [x|]; cbn [pick_export].
  - destruct (s_pieces stp (ag_comma x) (ag_list x) s) as [t|]; cbn [Src_Model.bind]; [|reflexivity].
    apply exports_none, X.
  - cbn [Src_Model.bind]. apply exports_none, X.
Qed.

Lemma fn_like d p f g g' :
  own_name p (sn_id f) -> recordable d (MFunc g) -> m_fn (pl_here p) f = Some g ->
  s_fn p f = Some g' -> like_fn eq (pl_here p) (pl_pub p) g g'.
Proof.
  intros Pl K M S. unfold m_fn, s_fn in *. step M as e Ee. step M as a Ea. step S as a' Ea'.
  rewrite (exports_one _ _ _ _ Ee) in Ea'.
  assert (R : fargs_rel a a').
  { destruct e as [e|]; cbn [m_fargs] in Ea.
    - exact (fargs_pieces _ _ _ _ Ea Ea').
    - injection Ea as <-. injection Ea' as <-. split; [|split]; reflexivity. }
  destruct K as (_ & _ & _ & K & _).
  refine (sig_like d _ _ _ false false a a' f g g' (sn_args f) R K eq_refl _ M S).
  rewrite <- (proj1 R). apply (names_like p), Pl.
Qed.

(** * Methods and constructors *)
Lemma member_none l ctor a :
  filter is_member_attr l = [] ->
  forall r, m_member_attrs ctor a l = Some r -> r = (ctor, a) /\ is_ctor l = false.
Proof.
  induction l as [|x l IH]; cbn [filter m_member_attrs]; intros H r M.
  - injection M as <-. auto.
  - destruct x; cbn [is_member_attr] in H; try discriminate; exact (IH H r M).
Qed.
Lemma pick_none {S} pick (stp : bool -> arg -> S -> option S) l s :
  (forall x, In x l -> is_member_attr x = false -> pick x = None) ->
  filter is_member_attr l = [] -> s_attrs pick stp l s = Some s.
Proof.
  induction l as [|x l IH]; cbn [filter s_attrs]; intros P H; [reflexivity|].
  destruct (is_member_attr x) eqn:X; [discriminate|].
  rewrite (P x (or_introl eq_refl) X). cbn [Src_Model.bind]. apply IH; [|exact H].
  intros y I. apply P. right. exact I.
Qed.
Lemma pick_method_other x : is_member_attr x = false -> pick_method x = None.
Proof. destruct x; cbn; congruence. Qed.
Lemma pick_ctor_other x : is_member_attr x = false -> pick_ctor x = None.
Proof. destruct x; cbn; congruence. Qed.

Lemma fargs_attr x a s' :
  m_fargs x = Some a ->
  match x with Some y => s_pieces s_fn_step (ag_comma y) (ag_list y) no_fargs | None => Some no_fargs end
  = Some s' -> fargs_rel a s'.
Proof.
  intros M P. destruct x as [y|]; cbn [m_fargs] in M.
  - exact (fargs_pieces _ _ _ _ M P).
  - injection M as <-. injection P as <-. split; [|split]; reflexivity.
Qed.

Lemma member_attrs_sim l c a a' :
  (length (filter is_member_attr l) <= 1)%nat ->
  m_member_attrs false no_fargs l = Some (c, a) ->
  s_attrs (if c then pick_ctor else pick_method) s_fn_step l no_fargs = Some a' ->
  c = is_ctor l /\ fargs_rel a a'.
Proof.
  induction l as [|x l IH]; cbn [filter m_member_attrs s_attrs]; intros N M P.
  - injection M as <- <-. injection P as <-. split; [reflexivity|]. split; [|split]; reflexivity.
  - step P as t Et.
    assert (Z : is_member_attr x = true -> filter is_member_attr l = []).
    { intros X. rewrite X in N. cbn [length] in N.
      destruct (filter is_member_attr l); [reflexivity|cbn [length] in N; lia]. }
    destruct x as [y| |y|y|y|y| | |y| |]; cbn [is_member_attr] in *; try discriminate M;
      try (assert (t = no_fargs) as -> by (destruct c; cbn in Et; congruence);
           destruct (IH N M P) as [A B]; split; [exact A | exact B]).
    + step M as b Eb. destruct (member_none _ _ _ (Z eq_refl) _ M) as [E _].
      injection E as -> ->. split; [reflexivity|].
      rewrite (pick_none pick_ctor _ l t (fun y _ => pick_ctor_other y) (Z eq_refl)) in P.
      injection P as ->. apply (fargs_attr y); [exact Eb|]. destruct y; exact Et.
    + step M as b Eb. destruct (member_none _ _ _ (Z eq_refl) _ M) as [E Fc].
      injection E as -> ->. split; [symmetry; exact Fc|].
      rewrite (pick_none pick_method _ l t (fun y _ => pick_method_other y) (Z eq_refl)) in P.
      injection P as ->. apply (fargs_attr y); [exact Eb|]. destruct y; exact Et.
Qed.

Lemma member_ctor l c a : m_member_attrs false no_fargs l = Some (c, a) -> c = is_ctor l.
Proof.
  cut (forall ctor b r, m_member_attrs ctor b l = Some r -> fst r = ctor || is_ctor l).
  { intros H E. apply H in E. exact E. }
  induction l as [|x l IH]; cbn [m_member_attrs]; intros ctor b r M.
  - injection M as <-. cbn. rewrite orb_false_r. reflexivity.
  - destruct x; try discriminate; try exact (IH _ _ _ M).
    + step M as y Ey. destruct ctor; [discriminate|]. rewrite (IH _ _ _ M). reflexivity.
    + step M as y Ey. destruct ctor; [discriminate|]. rewrite (IH _ _ _ M). reflexivity.
Qed.

Lemma method_like d here f c a g h :
  plain_member (MbFn f) -> Forall (param_ok d) (f_inputs g) ->
  m_member_attrs false no_fargs (sn_attrs f) = Some (c, a) -> c = false ->
  m_sig here true a f = Some g -> s_method here f = Some h ->
  like_fn eq here here g (fst h) /\ snd h = false.
Proof.
  intros [Pa Pn] K A -> M S. unfold s_method in S. step S as a' Ea'.
  destruct (member_attrs_sim _ _ _ _ Pn A Ea') as [_ R].
  destruct (sn_args f) as [|[arc|] rest] eqn:Ar; try discriminate.
  step S as g' Eg'. injection S as <-. cbn [fst snd]. split.
  - refine (sig_like d _ _ _ true true a a' f g g' rest R K _ _ M Eg').
    + exists arc. exact Ar.
    + rewrite <- (proj1 R). apply orig_like.
  - destruct arc; [|reflexivity]. exfalso. apply Pa. left. reflexivity.
Qed.

Lemma is_self_ret self t : is_self self t = true -> t <> None.
Proof. destruct t; [congruence|discriminate]. Qed.

Lemma like_drop_ret R mp mp' f g :
  like_fn R mp mp' f g -> like_fn R mp mp' (drop_ret f) (drop_ret g).
Proof.
  intros (A & B & C & D & E & F & G & H).
  unfold like_fn, drop_ret. cbn [f_mp f_name f_orig f_async f_inputs f_ret f_throws f_doc].
  split; [exact A|split; [exact B|split; [exact C|split; [exact D|split; [exact E|]]]]].
  split; [reflexivity|split; [exact G|exact H]].
Qed.

Lemma member_like d p self t m x ys :
  plain_member m -> recordable d x -> m_member (pl_here p) self m = Some x ->
  s_member (pl_here p) self t m = Some ys ->
  exists y, ys = [y] /\ like p (from_library x) y.
Proof.
  intros P K M S. destruct m as [f|]; [|discriminate].
  unfold m_member, s_member in *. step M as ca Eca. destruct ca as [c a].
  cbn [fst snd] in M. step M as g Eg.
  rewrite <- (member_ctor _ _ _ Eca) in S. destruct c; cbn [negb] in Eg.
  - destruct (is_self self (sn_ret f)) eqn:Es; [|discriminate]. injection M as <-.
    step S as g' Eg'. injection S as <-. eexists. split; [reflexivity|].
    unfold s_ctor in Eg'. step Eg' as a' Ea'. step Eg' as u Eu. step Eg' as h Eh.
    injection Eg' as <-.
    destruct (member_attrs_sim _ _ _ _ (proj2 P) Eca Ea') as [_ R].
    destruct K as (_ & K & _). destruct K as (_ & _ & _ & K & _). cbn [drop_ret f_inputs] in K.
    split; [reflexivity|split; [reflexivity|]]. cbn [d_meta from_library].
    split; [reflexivity|]. apply like_drop_ret.
    refine (sig_like d _ _ _ false false a a' f g h (sn_args f) R K eq_refl _ Eg Eh).
    rewrite <- (proj1 R). apply orig_like.
  - injection M as <-. step S as g' Eg'. injection S as <-. eexists. split; [reflexivity|].
    destruct K as (_ & K). destruct K as (_ & _ & _ & K & _).
    destruct (method_like d _ _ _ _ _ _ P K Eca eq_refl Eg Eg') as [A B].
    split; [reflexivity|split; [symmetry; exact B|]]. cbn [d_meta from_library].
    split; [reflexivity|exact A].
Qed.
