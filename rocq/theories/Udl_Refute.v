(** What is read otherwise than a UDL file says. *)
From Verif Require Import Base Meta_Types Lit_Spec Udl_Types Udl_Spec Udl_Model Udl_Claims.
Open Scope string_scope.

Definition no_value : udl -> ty -> option literal := fun _ _ => None.
Definition as_is : str -> str := fun d => d.
Definition here : str := S_ "c".
Definition ns0 (ms : list member) : def := DNamespace None (S_ "ns") None ms.
Definition op (a : wattrs) (m : option modifier) (r : wret) (x : option str) : wop := WOp a m false r x [] None.

Ltac all_in I := repeat match type of I with _ \/ _ => destruct I as [I|I] end; try contradiction.
Ltac no_names := let I := fresh in let J := fresh in let N := fresh in let d := fresh in
  intros ? ? I (d & J & N); cbn [In] in J; unfold builtins in I; cbn [In] in I;
  all_in J; subst d; cbn [def_name] in N; try discriminate N; all_in I; injection I as <- <-; vm_compute in N; discriminate N.
Ltac attrs_single := let d := fresh in let a := fresh in let I := fresh in let J := fresh in
  intros d a I J; cbn [In] in I; all_in I; subst d; cbn [attr_lists In map member_attrs op_attrs op] in J; all_in J; subst a;
  split; cbn [attrs_of In];
  let K := fresh in let L := fresh in (first [intros ? ? ? ? ? K L | intros ? ? ? K L]; all_in K; all_in L; congruence).
Ltac nodup := repeat constructor; cbn [In attrs_of]; let H := fresh in intros H; all_in H; vm_compute in H; discriminate H.

(** [Traits=(Eq)] on an [enum] is lost. *)
Definition e_traits : wattrs := Some [AList (S_ "Traits") [S_ "Eq"]].
Definition f_traits : list def := [ns0 []; DEnum e_traits (S_ "E") None [(S_ "A", None)]].
Lemma traits_refuted : ~ reads_fully (fun file => unshadowed file /\ plain_variants file /\ attrs_once file).
Proof.
  intros H.
  assert (U : unshadowed f_traits) by (unfold f_traits, ns0; no_names).
  assert (P : plain_variants f_traits) by (intros a x i doc ms o I; cbn [f_traits ns0 In] in I; all_in I; discriminate I).
  assert (A : attrs_once f_traits) by (unfold f_traits, ns0, e_traits; attrs_single).
  assert (S1 : says here no_value as_is f_traits (ITraitOf (S_ "E") (S_ "Eq") [trait_fn "uniffi_trait_eq_eq" (Some (TEnum here (S_ "E"))) TBool;
      trait_fn "uniffi_trait_eq_ne" (Some (TEnum here (S_ "E"))) TBool])).
  { apply sy_enum_trait with (a := e_traits) (doc := None) (vs := [(S_ "A", None)]); [right; left; reflexivity | |].
    - split; [nodup|]. constructor; [|constructor]. right. eexists. reflexivity.
    - exists [S_ "Eq"], "Eq". split; [left; reflexivity|]. split; [left; reflexivity|]. split; [reflexivity|]. right; right; left; reflexivity. }
  specialize (H here no_value as_is f_traits _ _ (conj U (conj P A)) eq_refl S1). vm_compute in H. all_in H; discriminate H.
Qed.

(** Of two [Throws] the first counts. *)
Definition two_errors : wattrs := Some [AIs (S_ "Throws") (S_ "A") false; AIs (S_ "Throws") (S_ "B") false].
Definition f_throws : list def :=
  [ns0 [MemOp (op two_errors None RUndefined (Some (S_ "f")))]; DEnum None (S_ "A") None []; DEnum None (S_ "B") None []].
Lemma throws_refuted : ~ reads_fully (fun file => unshadowed file /\ plain_variants file /\ no_enum_traits file).
Proof.
  intros H.
  assert (U : unshadowed f_throws) by (unfold f_throws, ns0; no_names).
  assert (P : plain_variants f_throws) by (intros a x i doc ms o I; cbn [f_throws ns0 In] in I; all_in I; discriminate I).
  assert (T : no_enum_traits f_throws).
  { intros a x doc vs l I; cbn [f_throws ns0 In] in I; all_in I; try discriminate I; injection I as <- <- <- <-; intros L; exact L. }
  assert (S1 : says here no_value as_is f_throws (IFunc (UFn (S_ "f") false [] None (Some (TEnum here (S_ "B"))) None))).
  { apply sy_func with (x := S_ "ns") (doc := None) (ms := [MemOp (op two_errors None RUndefined (Some (S_ "f")))])
      (o := op two_errors None RUndefined (Some (S_ "f"))); [left; reflexivity | left; reflexivity |].
    split; [reflexivity|]. split.
    - split; [nodup|]. apply Forall_forall. intros w I. cbn [attrs_of op_attrs op two_errors In] in I. right. all_in I; subst w; eexists; eexists; eexists; (split; [left; reflexivity | reflexivity]).
    - refine (conj _ (conj _ (conj _ (conj _ (conj _ _))))); cbn [u_async u_throws u_ret u_inputs u_doc op_attrs op op_ret op_args op_doc].
      + split; [discriminate|]. intros F. cbn [attrs_of two_errors] in F. unfold flag in F. cbn [attrs_of two_errors In] in F. all_in F; discriminate F.
      + apply th_error with (e := S_ "B"); [exists false; right; left; reflexivity|].
        apply dc_enum with (a := None) (doc := None) (vs := []). right; right; left; reflexivity.
      + constructor.
      + constructor.
      + reflexivity.
      + discriminate. }
  specialize (H here no_value as_is f_throws _ _ (conj U (conj P T)) eq_refl S1). vm_compute in H. all_in H; discriminate H.
Qed.

(** A dictionary with a builtin type's name is not what its name means. *)
Definition f_shadow : list def :=
  [ns0 [MemOp (op None None (RType (WId (S_ "timestamp"))) (Some (S_ "f")))]; DDict None (S_ "timestamp") false None []].
Lemma shadow_refuted : ~ reads_fully (fun file => plain_variants file /\ attrs_once file /\ no_enum_traits file).
Proof.
  intros H.
  assert (P : plain_variants f_shadow) by (intros a x i doc ms o I; cbn [f_shadow ns0 In] in I; all_in I; discriminate I).
  assert (A : attrs_once f_shadow) by (unfold f_shadow, ns0; attrs_single).
  assert (T : no_enum_traits f_shadow) by (intros a x doc vs l I; cbn [f_shadow ns0 In] in I; all_in I; discriminate I).
  assert (S1 : says here no_value as_is f_shadow (IFunc (UFn (S_ "f") false [] (Some (TRecord here (S_ "timestamp"))) None None))).
  { apply sy_func with (x := S_ "ns") (doc := None) (ms := [MemOp (op None None (RType (WId (S_ "timestamp"))) (Some (S_ "f")))])
      (o := op None None (RType (WId (S_ "timestamp"))) (Some (S_ "f"))); [left; reflexivity | left; reflexivity |].
    split; [reflexivity|]. split; [split; constructor|].
    refine (conj _ (conj _ (conj _ (conj _ (conj _ _))))); cbn [u_async u_throws u_ret u_inputs u_doc op_attrs op op_ret op_args op_doc].
    - split; [discriminate | intros []].
    - apply th_nothing. intros e (q & []).
    - apply ri_type; [intros [N | N]; [apply (f_equal (fun t => match t with WId x => x | _ => [] end)) in N; vm_compute in N; discriminate N | discriminate N]|].
      apply ti_own. apply dc_dict with (a := None) (i := false) (doc := None) (fs := []). right; left; reflexivity.
    - constructor.
    - reflexivity.
    - discriminate. }
  specialize (H here no_value as_is f_shadow _ _ (conj P (conj A T)) eq_refl S1). vm_compute in H. all_in H; discriminate H.
Qed.

(** [static] on a variant of an enum is ignored. *)
Definition f_static : list def :=
  [ns0 []; DIface (Some [ANoArgs (S_ "Enum")]) (S_ "E") false None [MemOp (op None (Some Static) (RType (WId (S_ "A"))) None)]].
Lemma static_refuted : ~ reads_soundly (fun file => unshadowed file /\ attrs_once file /\ no_enum_traits file).
Proof.
  intros H.
  assert (U : unshadowed f_static) by (unfold f_static, ns0; no_names).
  assert (A : attrs_once f_static) by (unfold f_static, ns0; attrs_single).
  assert (T : no_enum_traits f_static) by (intros a x doc vs l I; cbn [f_static ns0 In] in I; all_in I; discriminate I).
  specialize (H here no_value as_is f_static _ (IEnum (S_ "E") ShEnum false [Variant (S_ "A") None None [] None] false None)
    (conj U (conj A T)) eq_refl (or_introl eq_refl)).
  remember (IEnum (S_ "E") ShEnum false [Variant (S_ "A") None None [] None] false None) as M eqn:EM.
  destruct H; try discriminate EM.
  - cbn [f_static ns0 In] in H. all_in H; discriminate H.
  - cbn [f_static ns0 In] in H. all_in H; try discriminate H. injection H as _ _ _ <-.
    match goal with F : Forall2 _ _ _ |- _ => inversion F as [|? ? ? ? W _] end. inversion W as [? ? V]. destruct V as (_ & V & _). discriminate V.
Qed.

(** A custom type cannot come before the type it is made of. *)
Definition f_order : list def :=
  [ns0 []; DTypedef (Some [ANoArgs (S_ "Custom")]) (WId (S_ "Rec")) (S_ "Url"); DDict None (S_ "Rec") false None []].
Lemma order_refuted : ~ accepts (fun _ file => plainly_written file).
Proof.
  intros H.
  assert (U : unshadowed f_order) by (unfold f_order, ns0; no_names).
  assert (P : plain_variants f_order) by (intros a x i doc ms o I; cbn [f_order ns0 In] in I; all_in I; discriminate I).
  assert (A : attrs_once f_order) by (unfold f_order, ns0; attrs_single).
  assert (T : no_enum_traits f_order) by (intros a x doc vs l I; cbn [f_order ns0 In] in I; all_in I; discriminate I).
  destruct (H here no_value as_is f_order (conj U (conj P (conj A T)))) as (g & E).
  - refine (conj _ (conj _ _)).
    + exists (S_ "ns"), None. split; [exists None, []; split; [left; reflexivity | reflexivity]|].
      intros a y d ms I. cbn [f_order ns0 In] in I. all_in I; try discriminate I. injection I as _ <- _ _. reflexivity.
    + intros d I. cbn [f_order ns0 In] in I. all_in I; subst d; cbn [def_ok].
      * split; [reflexivity | intros b []].
      * split; [right; eexists; split; [reflexivity | left; reflexivity]|]. left. left. left. reflexivity.
      * refine (conj _ (conj _ (conj _ _))); [split; constructor | intros l k [] | reflexivity | exists []; constructor].
    + intros pre d e post x E I N. destruct pre as [|d1 pre]; [injection E as <- <-; discriminate N|]. injection E as _ E.
      destruct pre as [|d2 pre].
      * injection E as <- <-. cbn [In] in I. all_in I. subst e. injection N as <-. intros N. vm_compute in N. discriminate N.
      * injection E as _ E. destruct pre as [|d3 pre]; [injection E as _ <-; contradiction I|]. injection E as _ E. destruct pre; discriminate E.
  - vm_compute in E. discriminate E.
Qed.

(** A constructor that throws what is not defined panics. *)
Definition f_panic : list def :=
  [ns0 []; DIface None (S_ "O") false None [MemCons (Some [AIs (S_ "Throws") (S_ "E") false]) [] None]].
Lemma panic_refuted : ~ never_panics plainly_written.
Proof.
  intros H.
  assert (U : unshadowed f_panic) by (unfold f_panic, ns0; no_names).
  assert (P : plain_variants f_panic).
  { intros a x i doc ms o I F; cbn [f_panic ns0 In] in I; all_in I; try discriminate I. injection I as <- _ _ _ _. destruct F as [[]|[]]. }
  assert (A : attrs_once f_panic) by (unfold f_panic, ns0; attrs_single).
  assert (T : no_enum_traits f_panic) by (intros a x doc vs l I; cbn [f_panic ns0 In] in I; all_in I; discriminate I).
  apply (H here no_value as_is f_panic (conj U (conj P (conj A T)))). vm_compute. reflexivity.
Qed.

(** Two dictionaries of one name are both kept. *)
Definition f_twice : list def :=
  [ns0 []; DDict None (S_ "R") false None [WField None WBool (S_ "a") None None]; DDict None (S_ "R") false None []].
Lemma twice_refuted : ~ one_record plainly_written.
Proof.
  intros H.
  assert (U : unshadowed f_twice) by (unfold f_twice, ns0; no_names).
  assert (P : plain_variants f_twice) by (intros a x i doc ms o I; cbn [f_twice ns0 In] in I; all_in I; discriminate I).
  assert (A : attrs_once f_twice) by (unfold f_twice, ns0; attrs_single).
  assert (T : no_enum_traits f_twice) by (intros a x doc vs l I; cbn [f_twice ns0 In] in I; all_in I; discriminate I).
  specialize (H here no_value as_is f_twice _ (S_ "R") false [Field (S_ "a") None TBool None None] None false [] None
    (conj U (conj P (conj A T))) eq_refl).
  discriminate H; vm_compute; [left; reflexivity | right; left; reflexivity].
Qed.

(** [object] is advised but not accepted. *)
Lemma words_refuted : ~ words_accepted.
Proof.
  intros H. destruct (H here no_value as_is (S_ "d") "object" (S_ "X")) as (g & E).
  - right; right; right; right; left; reflexivity.
  - vm_compute in E. discriminate E.
Qed.
Close Scope string_scope.
