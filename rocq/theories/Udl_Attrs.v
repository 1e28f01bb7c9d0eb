(** Proofs: attributes of UDL files. *)
From Verif Require Import Base Meta_Types Lit_Spec Udl_Types Udl_Spec Udl_Claims Udl_Model.

Lemma ubind_ok {A B} (x : ures A) (f : A -> ures B) b : ubind x f = UOk b <-> exists a, x = UOk a /\ f a = UOk b.
Proof.
  destruct x; cbn; split; try discriminate.
  - intros H; exists a; split; [reflexivity | exact H].
  - intros (a' & E & H). injection E as ->. exact H.
  - intros (a' & E & H). discriminate.
  - intros (a' & E & H). discriminate.
Qed.
Lemma of_opt_ok {A} (x : option A) a : of_opt x = UOk a <-> x = Some a.
Proof. destruct x; cbn; split; congruence. Qed.
Lemma bail_if_ok b u : bail_if b = UOk u <-> b = false.
Proof. destruct b, u; cbn; split; congruence. Qed.
Lemma map_u_ok {A B} (f : A -> ures B) l r : map_u f l = UOk r <-> Forall2 (fun a b => f a = UOk b) l r.
Proof.
  split.
  - revert r. induction l as [|a l IH]; intros r H; cbn [map_u] in H.
    + injection H as <-. constructor.
    + apply ubind_ok in H as (b & E & H). apply ubind_ok in H as (bs & E' & H). injection H as <-.
      constructor; [exact E | exact (IH _ E')].
  - induction 1 as [|a b l r E _ IH]; cbn [map_u]; [reflexivity|]. rewrite E. cbn [ubind]. rewrite IH. reflexivity.
Qed.
Lemma find_str_in {A} x (l : list (str * A)) a : find_str x l = Some a -> In (x, a) l.
Proof.
  induction l as [|(y, b) l IH]; cbn [find_str]; [discriminate|].
  destruct (bytes_eqb_spec x y) as [->|].
  - intros E. injection E as ->. left; reflexivity.
  - intros E. right. exact (IH E).
Qed.
Lemma word_is_iff w x : word_is w x = true <-> x = S_ w.
Proof. unfold word_is. destruct (bytes_eqb_spec x (S_ w)); split; congruence. Qed.

Lemma strs_eqb_iff a b : strs_eqb a b = true <-> a = b.
Proof.
  revert b; induction a as [|x a IH]; intros [|y b]; cbn [strs_eqb]; try (split; congruence).
  destruct (bytes_eqb_spec x y) as [->|N]; cbn [andb].
  - rewrite IH. split; congruence.
  - split; congruence.
Qed.
Lemma wattr_eqb_iff a b : wattr_eqb a b = true <-> a = b.
Proof.
  destruct a as [x | x y q | x l |], b as [x' | x' y' q' | x' l' |]; cbn [wattr_eqb]; try (split; congruence).
  - destruct (bytes_eqb_spec x x'); split; congruence.
  - destruct (bytes_eqb_spec x x'); cbn [andb]; [|split; congruence].
    destruct (bytes_eqb_spec y y'); cbn [andb]; [|split; congruence].
    destruct q, q'; cbn; split; congruence.
  - destruct (bytes_eqb_spec x x'); cbn [andb]; [|split; congruence]. rewrite strs_eqb_iff. split; congruence.
Qed.
Lemma duplicated_iff l : duplicated l = false <-> NoDup l.
Proof.
  induction l as [|a l IH]; cbn [duplicated].
  - split; [constructor | reflexivity].
  - rewrite orb_false_iff, IH. split.
    + intros (E & H). constructor; [|exact H]. intros I.
      assert (X : existsb (wattr_eqb a) l = true) by (apply existsb_exists; exists a; split; [exact I | apply wattr_eqb_iff; reflexivity]).
      congruence.
    + intros H. inversion H; subst. split; [|assumption]. destruct (existsb (wattr_eqb a) l) eqn:E; [|reflexivity].
      apply existsb_exists in E as (b & I & E). apply wattr_eqb_iff in E. subst b. contradiction.
Qed.

(** *** One attribute *)
Definition parses (w : wattr) (a : attr) : Prop := parse_attr w = UOk a.
Definition written (w : wattr) (a : attr) : Prop :=
  match a with
  | AtByRef => w = ANoArgs (S_ "ByRef") | AtByMutRef => w = ANoArgs (S_ "ByMutRef") | AtEnum => w = ANoArgs (S_ "Enum")
  | AtError => w = ANoArgs (S_ "Error") | AtRemote => w = ANoArgs (S_ "Remote") | AtTrait => w = ANoArgs (S_ "Trait")
  | AtWithForeign => w = ANoArgs (S_ "WithForeign") | AtAsync => w = ANoArgs (S_ "Async")
  | AtNonExhaustive => w = ANoArgs (S_ "NonExhaustive") | AtCustom None => w = ANoArgs (S_ "Custom")
  | AtName y => exists q, w = AIs (S_ "Name") y q | AtThrows y => exists q, w = AIs (S_ "Throws") y q
  | AtExternal y => exists q, w = AIs (S_ "External") y q | AtCustom (Some y) => exists q, w = AIs (S_ "Custom") y q
  | AtSelfByArc => w = by_arc | AtTraits l => w = AList (S_ "Traits") l
  end.
Ltac in_cases H :=
  repeat match type of H with
  | _ \/ _ => destruct H as [H | H]
  | False => destruct H
  end.
Lemma parses_iff w a : parses w a <-> written w a.
Proof.
  unfold parses. split.
  - destruct w as [x | x y q | x l |]; cbn [parse_attr].
    + intros H. apply of_opt_ok in H. apply find_str_in in H. unfold no_args in H. cbn [In] in H.
      in_cases H; injection H as <- <-; reflexivity.
    + intros H. apply ubind_ok in H as (r & H & E). subst r. apply of_opt_ok in H. apply find_str_in in H.
      unfold with_value in H. cbn [In] in H.
      in_cases H; try (injection H as <- <-; exists q; reflexivity).
      injection H as <- H. destruct (negb q && word_is "ByArc" y)%bool eqn:E; [|discriminate].
      injection H as <-. apply andb_true_iff in E as (Q & E). apply word_is_iff in E. subst y.
      destruct q; [discriminate | reflexivity].
    + destruct (word_is "Traits" x) eqn:E; intros H; [|discriminate]. injection H as <-. apply word_is_iff in E. subst x.
      reflexivity.
    + discriminate.
  - intros H. destruct a as [| | | | x | | x | l | x | | [x|] | | | |]; cbn [written] in H;
      try (destruct H as (q & ->)); try (subst w); reflexivity.
Qed.

(** A validator and what is for a definition. *)
Definition agrees (ok : attr -> bool) (sp : wattr -> Prop) : Prop := forall w, sp w <-> exists a, parses w a /\ ok a = true.
Ltac attr_known :=
  match goal with
  | |- word _ _ => eexists; split; [|reflexivity]; cbn [In]; solve [auto 12]
  | |- assigns _ _ => eexists; eexists; eexists; split; [|reflexivity]; cbn [In]; solve [auto 12]
  | |- traits_attr _ => eexists; reflexivity
  | |- _ = _ => reflexivity
  | |- _ \/ _ => (left; attr_known) || (right; attr_known)
  end.
Ltac agree :=
  let w := fresh "w" in let H := fresh "H" in let a := fresh "a" in let P := fresh "P" in
  intros w; split;
  [ intros H;
    repeat match type of H with _ \/ _ => destruct H as [H | H] end;
    match type of H with
    | word _ _ => destruct H as (? & H & ->); cbn [In] in H; in_cases H; subst
    | assigns _ _ => destruct H as (? & ? & ? & H & ->); cbn [In] in H; in_cases H; subst
    | traits_attr _ => destruct H as (? & ->)
    | _ = _ => subst w
    end; (eexists; split; [unfold parses; vm_compute; reflexivity | reflexivity])
  | intros (a & P & H); apply parses_iff in P;
    destruct a as [| | | | ? | | ? | ? | ? | | [?|] | | | |]; try discriminate H; clear H; cbn [written] in P;
    try (destruct P as (? & P)); subst w; attr_known ].
Lemma dict_agrees : agrees (fun a => match a with AtRemote | AtTraits _ => true | _ => false end) dict_attr.
Proof. unfold dict_attr. agree. Qed.
Lemma enum_agrees : agrees (fun a => match a with
  | AtError | AtNonExhaustive | AtRemote | AtEnum | AtTraits _ => true | _ => false end) enum_attr.
Proof. unfold enum_attr. agree. Qed.
Lemma fn_agrees : agrees (fun a => match a with AtThrows _ | AtAsync => true | _ => false end) fn_attr.
Proof. unfold fn_attr. agree. Qed.
Lemma arg_agrees : agrees (fun a => match a with AtByRef | AtByMutRef => true | _ => false end) arg_attr.
Proof. unfold arg_attr. agree. Qed.
Lemma cons_agrees : agrees (fun a => match a with AtThrows _ | AtName _ | AtAsync => true | _ => false end) cons_attr.
Proof. unfold cons_attr. agree. Qed.
Lemma method_agrees : agrees (fun a => match a with AtSelfByArc | AtThrows _ | AtAsync => true | _ => false end) method_attr.
Proof. unfold method_attr. agree. Qed.
Definition any_iface_attr (w : wattr) : Prop := word ["Trait"; "WithForeign"; "Remote"; "Enum"; "Error"]%string w \/ traits_attr w.
Lemma iface_agrees : agrees (fun a => match a with
  | AtEnum | AtError | AtTrait | AtWithForeign | AtTraits _ | AtRemote => true | _ => false end) any_iface_attr.
Proof. unfold any_iface_attr. agree. Qed.
Definition typedef_attr (w : wattr) : Prop := word ["Custom"]%string w \/ assigns ["External"; "Custom"]%string w.
Lemma typedef_agrees : agrees (fun a => match a with AtExternal _ | AtCustom _ => true | _ => false end) typedef_attr.
Proof. unfold typedef_attr. agree. Qed.

(** *** Lists of them *)
Lemma parse_attributes_ok ok a r :
  parse_attributes ok a = UOk r <->
  NoDup (attrs_of a) /\ Forall2 parses (attrs_of a) r /\ forallb ok r = true.
Proof.
  destruct a as [l|]; cbn [parse_attributes attrs_of].
  - split.
    + intros H. apply ubind_ok in H as (u & D & H). apply bail_if_ok in D. apply ubind_ok in H as (r' & M & H).
      apply ubind_ok in H as (u' & F & H). injection H as ->. apply bail_if_ok in F. apply negb_false_iff in F.
      apply duplicated_iff in D. apply map_u_ok in M. auto.
    + intros (D & M & F). apply duplicated_iff in D. rewrite D. cbn [bail_if ubind]. apply map_u_ok in M. rewrite M. cbn [ubind].
      rewrite F. reflexivity.
  - split.
    + intros H. injection H as <-. repeat split; constructor.
    + intros (_ & M & _). inversion M; subst. reflexivity.
Qed.
Lemma forall2_in_l {A B} (R : A -> B -> Prop) l r a : Forall2 R l r -> In a l -> exists b, In b r /\ R a b.
Proof.
  induction 1 as [|x y l r H _ IH]; intros I; [destruct I|]. destruct I as [-> | I].
  - exists y; split; [left; reflexivity | exact H].
  - destruct (IH I) as (b & J & X). exists b; split; [right; exact J | exact X].
Qed.
Lemma forall2_in_r {A B} (R : A -> B -> Prop) l r b : Forall2 R l r -> In b r -> exists a, In a l /\ R a b.
Proof.
  induction 1 as [|x y l r H _ IH]; intros I; [destruct I|]. destruct I as [-> | I].
  - exists x; split; [left; reflexivity | exact H].
  - destruct (IH I) as (a & J & X). exists a; split; [right; exact J | exact X].
Qed.
Lemma forall2_exists {A B} (R : A -> B -> Prop) l : (forall a, In a l -> exists b, R a b) -> exists r, Forall2 R l r.
Proof.
  induction l as [|a l IH]; intros H; [exists []; constructor|].
  destruct (H a (or_introl eq_refl)) as (b & E). destruct IH as (r & F); [intros x I; apply H; right; exact I|].
  exists (b :: r). constructor; assumption.
Qed.
Lemma parse_only ok sp a r : agrees ok sp -> parse_attributes ok a = UOk r -> only sp a /\ Forall2 parses (attrs_of a) r.
Proof.
  intros G H. apply parse_attributes_ok in H as (D & M & F). split; [split; [exact D|]|exact M].
  apply Forall_forall. intros w I. apply G. destruct (forall2_in_l _ _ _ _ M I) as (b & J & P). exists b. split; [exact P|].
  rewrite forallb_forall in F. exact (F b J).
Qed.
Lemma only_parse ok sp a : agrees ok sp -> only sp a -> exists r, parse_attributes ok a = UOk r /\ Forall2 parses (attrs_of a) r.
Proof.
  intros G (D & F). rewrite Forall_forall in F.
  destruct (forall2_exists (fun w b => parses w b /\ ok b = true) (attrs_of a)) as (r & X).
  - intros w I. apply G. exact (F w I).
  - exists r. assert (Y : Forall2 parses (attrs_of a) r) by (clear -X; induction X; constructor; intuition).
    split; [|exact Y]. apply parse_attributes_ok. split; [exact D|]. split; [exact Y|].
    apply forallb_forall. intros b I. destruct (forall2_in_r _ _ _ _ X I) as (w & _ & _ & E). exact E.
Qed.
Lemma has_iff p w0 l r : (forall w a, parses w a -> (p a = true <-> w = w0)) -> Forall2 parses l r -> (has p r = true <-> In w0 l).
Proof.
  intros G M. unfold has. rewrite existsb_exists. split.
  - intros (a & I & E). destruct (forall2_in_r _ _ _ _ M I) as (w & J & P). apply (G _ _ P) in E. subst w. exact J.
  - intros I. destruct (forall2_in_l _ _ _ _ M I) as (a & J & P). exists a. split; [exact J|]. apply (G _ _ P). reflexivity.
Qed.
Ltac flag_tac :=
  let w := fresh "w" in let a := fresh "a" in let P := fresh "P" in let E := fresh "E" in
  apply has_iff; intros w a P; apply parses_iff in P; split; intros E;
  [ destruct a as [| | | | ? | | ? | ? | ? | | [?|] | | | |]; try discriminate E; exact P
  | destruct a as [| | | | ? | | ? | ? | ? | | [?|] | | | |]; cbn [written] in P; try reflexivity; exfalso;
    repeat match goal with H : exists _, _ |- _ => destruct H as (? & H) end;
    rewrite P in E; discriminate E ].
Section Flags.
  Variables (l : list wattr) (r : list attr).
  Lemma has_async : Forall2 parses l r -> (has is_async r = true <-> In (ANoArgs (S_ "Async")) l). Proof. flag_tac. Qed.
  Lemma has_remote : Forall2 parses l r -> (has is_remote r = true <-> In (ANoArgs (S_ "Remote")) l). Proof. flag_tac. Qed.
  Lemma has_error : Forall2 parses l r -> (has is_error r = true <-> In (ANoArgs (S_ "Error")) l). Proof. flag_tac. Qed.
  Lemma has_enum : Forall2 parses l r -> (has is_enum r = true <-> In (ANoArgs (S_ "Enum")) l). Proof. flag_tac. Qed.
  Lemma has_trait : Forall2 parses l r -> (has is_trait r = true <-> In (ANoArgs (S_ "Trait")) l). Proof. flag_tac. Qed.
  Lemma has_foreign : Forall2 parses l r -> (has is_foreign r = true <-> In (ANoArgs (S_ "WithForeign")) l). Proof. flag_tac. Qed.
  Lemma has_non_exhaustive : Forall2 parses l r -> (has is_non_exhaustive r = true <-> In (ANoArgs (S_ "NonExhaustive")) l).
  Proof. flag_tac. Qed.
  Lemma has_by_ref : Forall2 parses l r -> (has is_by_ref r = true <-> In (ANoArgs (S_ "ByRef")) l). Proof. flag_tac. Qed.
  Lemma has_by_mut_ref : Forall2 parses l r -> (has is_by_mut_ref r = true <-> In (ANoArgs (S_ "ByMutRef")) l). Proof. flag_tac. Qed.
  Lemma has_by_arc : Forall2 parses l r -> (has is_by_arc r = true <-> In by_arc l). Proof. flag_tac. Qed.
End Flags.
Lemma find_map_some {A} (f : attr -> option A) l y : find_map f l = Some y -> exists a, In a l /\ f a = Some y.
Proof.
  induction l as [|a l IH]; cbn [find_map]; [discriminate|]. destruct (f a) eqn:E; intros H.
  - injection H as ->. exists a; split; [left; reflexivity | exact E].
  - destruct (IH H) as (b & I & X). exists b; split; [right; exact I | exact X].
Qed.
Lemma find_map_none {A} (f : attr -> option A) l : find_map f l = None -> forall a, In a l -> f a = None.
Proof.
  induction l as [|a l IH]; cbn [find_map]; intros H b I; [destruct I|].
  destruct (f a) eqn:E; [discriminate|]. destruct I as [<- | I]; [exact E | exact (IH H b I)].
Qed.
Section Values.
  Variables (a : wattrs) (r : list attr).
  Hypothesis M : Forall2 parses (attrs_of a) r.
  Ltac some_tac H :=
    apply find_map_some in H as (? & ? & H);
    match goal with I : In ?b r |- _ =>
      destruct (forall2_in_r _ _ _ _ M I) as (? & ? & ?P); apply parses_iff in P;
      destruct b as [| | | | ? | | ? | ? | ? | | [?|] | | | |]; try discriminate H; injection H as ->; cbn [written] in P end.
  Lemma throws_some e : get_throws r = Some e -> is_set a "Throws" e.
  Proof. unfold get_throws, is_set. intros H. some_tac H. destruct P as (q & ->). exists q. assumption. Qed.
  Lemma throws_none e : get_throws r = None -> ~ is_set a "Throws" e.
  Proof.
    unfold get_throws, is_set. intros H (q & I). destruct (forall2_in_l _ _ _ _ M I) as (b & J & P).
    assert (P' : parses (AIs (S_ "Throws") e q) (AtThrows e)) by (apply parses_iff; exists q; reflexivity).
    unfold parses in P, P'. rewrite P' in P. injection P as <-. pose proof (find_map_none _ _ H _ J). discriminate.
  Qed.
  Lemma name_some e : get_name r = Some e -> is_set a "Name" e.
  Proof. unfold get_name, is_set. intros H. some_tac H. destruct P as (q & ->). exists q. assumption. Qed.
  Lemma name_none e : get_name r = None -> ~ is_set a "Name" e.
  Proof.
    unfold get_name, is_set. intros H (q & I). destruct (forall2_in_l _ _ _ _ M I) as (b & J & P).
    assert (P' : parses (AIs (S_ "Name") e q) (AtName e)) by (apply parses_iff; exists q; reflexivity).
    unfold parses in P, P'. rewrite P' in P. injection P as <-. pose proof (find_map_none _ _ H _ J). discriminate.
  Qed.
  Lemma traits_in k : In k (get_traits r) -> exists l, lists a "Traits" l /\ In k l.
  Proof.
    unfold get_traits, lists. destruct (find_map _ r) as [l|] eqn:H; [|intros []]. intros I. exists l. split; [|exact I].
    some_tac H. rewrite <- P. assumption.
  Qed.
  Lemma traits_once l : once a -> lists a "Traits" l -> get_traits r = l.
  Proof.
    intros (_ & O1) L. unfold get_traits. destruct (find_map _ r) as [l'|] eqn:H.
    - apply (O1 (S_ "Traits") l' l); [|exact L]. some_tac H. rewrite <- P. assumption.
    - exfalso. unfold lists in L. destruct (forall2_in_l _ _ _ _ M L) as (b & J & P).
      assert (P' : parses (AList (S_ "Traits") l) (AtTraits l)) by (apply parses_iff; reflexivity).
      unfold parses in P, P'. rewrite P' in P. injection P as <-. pose proof (find_map_none _ _ H _ J). discriminate.
  Qed.
  Lemma throws_once e : once a -> is_set a "Throws" e -> get_throws r = Some e.
  Proof.
    intros (O1 & _) L. destruct (get_throws r) as [e'|] eqn:H; [|exfalso; exact (throws_none e H L)].
    destruct (throws_some e' H) as (q' & I'). destruct L as (q & I). f_equal. exact (O1 _ _ _ _ _ I' I).
  Qed.
  Lemma name_once e : once a -> is_set a "Name" e -> get_name r = Some e.
  Proof.
    intros (O1 & _) L. destruct (get_name r) as [e'|] eqn:H; [|exfalso; exact (name_none e H L)].
    destruct (name_some e' H) as (q' & I'). destruct L as (q & I). f_equal. exact (O1 _ _ _ _ _ I' I).
  Qed.
End Values.
