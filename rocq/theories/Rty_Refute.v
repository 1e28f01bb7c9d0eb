(** Types that are resolved to something else, or not at all. *)
From Verif Require Import Base Meta_Types Path_Types Path_Spec Path_Model Path_Claims Path_Decide Path_Refute
  Pub_Spec Pub_Model Pub_Claims Pub_Decide Pub_Refute Rty_Types Rty_Spec Rty_Model Rty_Claims Rty_Decide.

Definition names_ (x : string) : sty := SPath (p_ [x]) [].
Definition of_ (x : string) (t : sty) : sty := SPath (p_ [x]) [GType t].
(** A world with one alias. *)
Definition with_alias (r : ir) (a : alias_def) : world :=
  World r (fun it => match i_kind it with KType => a | _ => Alias [] SUnit end) (fun _ => SUnit) (fun _ => TBool)
    (fun _ => ETrait RustOnly).
Ltac known_ := eapply refers_known with (m := 0%nat); reflexivity.
Ltac one_ := apply one_of_each_ok; [tree_ | reflexivity].
Ltac offered_ := apply all_offered_ok; [tree_ | reflexivity].
Ltac settled_ := apply settled_ok; [tree_ | constructor].
Ltac place_ := (apply place_k; now left).
Ltac without_ := apply without_ok; [reflexivity | reflexivity | now intros].

(** [#[derive(uniffi::Record)] pub struct T {}  pub type Opts<T> = Vec<Option<T>>;  Opts<u32>]. *)
Definition rec_t := it_ 1 "T" Public (KRecord false).
Definition opts := it_ 2 "Opts" Public KType.
Definition nested_w : world :=
  with_alias (Ir [(0, [rec_t; opts])]%nat [(S_ "k", root0)]) (Alias [(S_ "T", None)] (of_ "Vec" (of_ "Option" (names_ "T")))).
Definition opts_u32 : sty := of_ "Opts" (names_ "u32").
Lemma with_alias_types r a : only_types (a_ty a) = true -> forallb (fun e => match snd e with Some t => only_types t | None => true end) (a_params a) = true ->
  types_only (with_alias r a).
Proof.
  intros A B. repeat split; cbn.
  - intro it. now destruct (i_kind it).
  - intros it x t I. rewrite forallb_forall in B. destruct (i_kind it); try destruct I; exact (B _ I).
Qed.
Lemma denotes_u32 w env : is_ w [root0] (p_ ["u32"%string]) [std (StdType (S_ "u32"))] -> assoc env (S_ "u32") = None ->
  denotes w (is_ w) [root0] env (names_ "u32") (MBase TU32).
Proof. intros H E. eapply dn_simple; [reflexivity | | exact H | reflexivity | reflexivity]. exact E. Qed.
Lemma nested_denotes : denotes nested_w (is_ nested_w) [root0] [] opts_u32 (MVec (MOption (MBase TU32))).
Proof.
  eapply dn_alias with (it := opts) (up := [root0]); try reflexivity.
  - apply (refers_one _ _ 0%nat); reflexivity.
  - eapply ga_arg; [|apply ga_nil]. apply denotes_u32; [known_ | reflexivity].
  - eapply dn_generic1 with (f := MVec) (x := S_ "Vec"); [reflexivity | reflexivity | known_ | reflexivity | reflexivity | reflexivity |].
    eapply dn_generic1 with (f := MOption) (x := S_ "Option"); [reflexivity | reflexivity | known_ | reflexivity | reflexivity | reflexivity |].
    now apply dn_param.
Qed.
Lemma nested_refuted : ~ type_exact not_nested named_somehow.
Proof.
  intro H. destruct (as_type nested_w 20 20 20 None [root0] opts_u32 (PCache fresh [])) as [[o c]|] eqn:E; [|vm_compute in E; discriminate].
  destruct (H nested_w None [root0] opts_u32 (MVec (MOption (MBase TU32))) ltac:(tree_) ltac:(own_) ltac:(one_) ltac:(settled_) ltac:(offered_)) with
    (d := 20%nat) (b := 20%nat) (f := 20%nat) (c := PCache fresh []) (o := o) (c' := c) as (T & A & B).
  - split; [apply with_alias_types; reflexivity | reflexivity].
  - place_.
  - apply nested_denotes.
  - exists (TSeq (TOption TU32)). apply rc_vec; [|discriminate]. apply rc_option, rc_base.
  - apply reached_start.
  - exact E.
  - subst o. vm_compute in E. injection E as <- _.
    inversion B as [| | | | | | | | | | | | | | | | m t R | | | | ]; subst. inversion R as [| | | | | | | | | | | | | | m t R' | | | | | |]; subst. inversion R'.
Qed.

(** [pub type R<'a, T> = Vec<T>;  R<'a, u32>]. *)
Definition lifetime_w : world := with_alias (Ir [(0, [it_ 2 "R" Public KType])]%nat [(S_ "k", root0)]) (Alias [(S_ "T", None)] (of_ "Vec" (names_ "T"))).
Definition r_u32 : sty := SPath (p_ ["R"%string]) [GOther; GType (names_ "u32")].
Lemma lifetimes_refuted : ~ type_exact with_lifetimes named_somehow.
Proof.
  intro H. destruct (as_type lifetime_w 20 20 20 None [root0] r_u32 (PCache fresh [])) as [[o c]|] eqn:E; [|vm_compute in E; discriminate].
  destruct (H lifetime_w None [root0] r_u32 (MVec (MBase TU32)) ltac:(tree_) ltac:(own_) ltac:(one_) ltac:(settled_) ltac:(offered_)) with
    (d := 20%nat) (b := 20%nat) (f := 20%nat) (c := PCache fresh []) (o := o) (c' := c) as (T & A & B).
  - intro it. cbn. now destruct (i_kind it).
  - place_.
  - eapply dn_alias with (it := it_ 2 "R" Public KType) (up := [root0]); try reflexivity.
    + apply (refers_one _ _ 0%nat); reflexivity.
    + eapply ga_arg; [|apply ga_nil]. apply denotes_u32; [known_ | reflexivity].
    + eapply dn_generic1 with (f := MVec) (x := S_ "Vec"); [reflexivity | reflexivity | known_ | reflexivity | reflexivity | reflexivity |]. now apply dn_param.
  - exists (TSeq TU32). apply rc_vec; [|discriminate]. apply rc_base.
  - apply reached_start.
  - exact E.
  - subst o. vm_compute in E. discriminate.
Qed.

(** [std::sync::Arc<dyn …>]. *)
Definition arc_dyn (l : list string) : sty := SPath (p_ ["std"; "sync"; "Arc"]%string) [GType (SDyn [p_ l])].
(** Of another crate: [dep] has [#[uniffi::export] pub trait Tr {}]; [Arc<dyn dep::Tr>]. *)
Definition tr := it_ 11 "Tr" Public KTrait.
Definition crates_w : world := with_alias (Ir [(0, []); (10, [tr])]%nat [(S_ "k", root0); (S_ "dep", root1)]) (Alias [] SUnit).
Lemma plain_none r : plain (with_alias r (Alias [] SUnit)).
Proof. intro it. cbn. now destruct (i_kind it). Qed.
Lemma only_root r root : (forall m it k, In it (items_of r m) -> i_kind it = KModule k -> i_vis it = Private) ->
  forall q, pub_module r root q -> q = [root].
Proof. intros H q P. induction P as [|q m it k P IH TM I K V]; auto. exfalso. rewrite (H _ _ _ I K) in V. discriminate. Qed.
Lemma crates_refuted : ~ type_exact traits_of_crates named_publicly.
Proof.
  intro H. destruct (as_type crates_w 20 20 20 None [root0] (arc_dyn ["dep"; "Tr"]%string) (PCache fresh [])) as [[o c]|] eqn:E; [|vm_compute in E; discriminate].
  destruct (H crates_w None [root0] (arc_dyn ["dep"; "Tr"]%string) (MArc (MTrait [tr; root1])) ltac:(tree_) ltac:(own_) ltac:(one_) ltac:(settled_) ltac:(offered_)) with
    (d := 20%nat) (b := 20%nat) (f := 20%nat) (c := PCache fresh []) (o := o) (c' := c) as (T & A & B).
  - split; [split; [apply plain_none | split; [now apply with_alias_types | reflexivity]] | split; without_].
  - place_.
  - eapply dn_generic1 with (f := MArc) (x := S_ "Arc"); [reflexivity | reflexivity | known_ | reflexivity | reflexivity | reflexivity |].
    apply dn_dyn; [|reflexivity]. eapply refers_out; [reflexivity | reflexivity | |].
    + eapply (m_nothing _ _ 0%nat); try reflexivity; [apply used_nil | apply starred_nil].
    + eapply (out_crate _ _ _ _ (S_ "dep") _ root1); try reflexivity.
      eapply goes_on; [|apply goes_end]. eapply (m_declared _ _ 10%nat); try reflexivity. apply used_nil.
  - exists (TObject (S_ "k") (S_ "Tr") (ITrait RustOnly)).
    refine (rc_arc_trait crates_w _ _ [tr; root1] RustOnly [S_ "k"] (S_ "Tr") _). apply (ta_source crates_w _ tr); [reflexivity|].
    split; [reflexivity|]. exists [root0]. split; [place_ | reflexivity].
  - apply reached_start.
  - exact E.
  - subst o. vm_compute in E. injection E as <- _.
    inversion B as [| | | | | ? ? ? ? TA E1 E2 | | | | | | | | | | | | | | |]; subst; [|discriminate].
    inversion TA as [? ? ? ? K N]; subst. destruct N as (it & root & nm & (p & up & [= <- <- <-] & CR) & (_ & q & i & PM & NM & _) & -> & _).
    injection CR as <-. apply (only_root _ root1) in PM.
    + subst q. match goal with Q : text (n_module nm) = _ |- _ => rewrite NM in Q; vm_compute in Q; discriminate Q end.
    + intros m it k I K'. exfalso. unfold items_of in I. cbn in I.
      destruct m as [| [| [| [| [| [| [| [| [| [| [| m]]]]]]]]]]]; cbn in I; try destruct I as [<- | []]; try destruct I. discriminate.
Qed.

(** Renamed: [#[uniffi::export(name = "Named")] pub trait Tr {}]; [Arc<dyn Tr>]. *)
Definition tr_named := Item (Src 11) (S_ "Tr") (Some (S_ "Named")) Public KTrait.
Definition renamed_w : world := with_alias (Ir [(0, [tr_named])]%nat [(S_ "k", root0)]) (Alias [] SUnit).
Lemma renamed_refuted : ~ type_exact traits_renamed named_publicly.
Proof.
  intro H. destruct (as_type renamed_w 20 20 20 None [root0] (arc_dyn ["Tr"%string]) (PCache fresh [])) as [[o c]|] eqn:E; [|vm_compute in E; discriminate].
  destruct (H renamed_w None [root0] (arc_dyn ["Tr"%string]) (MArc (MTrait [tr_named; root0])) ltac:(tree_) ltac:(own_) ltac:(one_) ltac:(settled_) ltac:(offered_)) with
    (d := 20%nat) (b := 20%nat) (f := 20%nat) (c := PCache fresh []) (o := o) (c' := c) as (T & A & B).
  - split; [split; [apply plain_none | split; [now apply with_alias_types | reflexivity]] | split; [without_ | eexists; reflexivity]].
  - place_.
  - eapply dn_generic1 with (f := MArc) (x := S_ "Arc"); [reflexivity | reflexivity | known_ | reflexivity | reflexivity | reflexivity |].
    apply dn_dyn; [|reflexivity]. apply (refers_one _ _ 0%nat); reflexivity.
  - exists (TObject (S_ "k") (S_ "Tr") (ITrait RustOnly)).
    refine (rc_arc_trait renamed_w _ _ [tr_named; root0] RustOnly [S_ "k"] (S_ "Tr") _). apply (ta_source renamed_w _ tr_named); [reflexivity|].
    split; [reflexivity|]. exists [root0]. split; [place_ | reflexivity].
  - apply reached_start.
  - exact E.
  - subst o. vm_compute in E. injection E as <- _.
    inversion B as [| | | | | ? ? ? ? TA E1 E2 | | | | | | | | | | | | | | |]; subst; [|discriminate].
    inversion TA as [? ? ? ? K N]; subst. destruct N as (it & root & nm & (p & up & [= <- <- <-] & CR) & (BN & _) & _ & EN).
    rewrite BN in EN. vm_compute in EN. discriminate.
Qed.

(** [mod a { pub struct Url; uniffi::custom_type!(Url, String); } pub use a::Url;  Url]. *)
Definition url := it_ 5 "Url" Public KCustom.
Definition custom_w : world :=
  World (Ir [(0, [priv_a; it_ 7 "Url" Public (KUse (p_ ["a"; "Url"]%string))]); (1, [url])]%nat [(S_ "k", root0)])
    (fun _ => Alias [] SUnit) (fun _ => names_ "String") (fun _ => TBool) (fun _ => ETrait RustOnly).
Lemma custom_url : refers (w_ir custom_w) [root0] (p_ ["a"; "Url"]%string) NsType (Some [url; priv_a; root0]).
Proof.
  eapply refers_here; [reflexivity | reflexivity | |].
  - eapply (m_declared _ _ 0%nat); try reflexivity. apply used_nil.
  - eapply goes_on; [|apply goes_end]. eapply (m_described _ _ 1%nat); try reflexivity. discriminate.
Qed.
Lemma customs_refuted : ~ type_exact customs_only named_publicly.
Proof.
  intro H. destruct (as_type custom_w 20 20 20 None [root0] (names_ "Url") (PCache fresh [])) as [[o c]|] eqn:E; [|vm_compute in E; discriminate].
  destruct (H custom_w None [root0] (names_ "Url") (MCustom [url; priv_a; root0] (MBase TString)) ltac:(tree_) ltac:(own_) ltac:(one_)) with
    (d := 20%nat) (b := 20%nat) (f := 20%nat) (c := PCache fresh []) (o := o) (c' := c) as (T & A & B).
  - apply settled_ok; [tree_|]. constructor; [|constructor]. exists [root0]. split; [place_|].
    split; [reflexivity|]. cbn. eexists. exact custom_url.
  - offered_.
  - split; [split; [intro; reflexivity | split; [repeat split | reflexivity]] | without_]. now intros it x t [].
  - place_.
  - eapply dn_custom; try reflexivity.
    + eapply refers_here; [reflexivity | reflexivity | | apply goes_end].
      eapply (m_used _ _ 0%nat _ _ _ []); try reflexivity.
      * apply (used_one _ _ _ (p_ ["a"; "Url"]%string) []); [exact custom_url | reflexivity | apply used_nil].
      * intros x y [<- | []] [<- | []]. exists url, url, [priv_a; root0], [priv_a; root0]. auto.
    + eapply dn_simple; [reflexivity | reflexivity | eapply refers_known with (m := 1%nat); reflexivity | reflexivity | reflexivity].
  - exists (TCustom (S_ "k::a") (S_ "Url") TString). refine (rc_custom custom_w _ _ _ [S_ "k"; S_ "a"] (S_ "Url") _ _ _ (rc_base _ _ _ _)).
    split; reflexivity.
  - apply reached_start.
  - exact E.
  - subst o. vm_compute in E. injection E as <- _.
    inversion B as [| | | | | | | | | | | | | | | | | | | |? ? ? ? ? N R E1 E2]; subst.
    destruct N as (it & root & nm & (p & up & [= <- <- <-] & CR) & (_ & q & i & PM & NM & _) & -> & _).
    injection CR as <-. apply (only_root _ root0) in PM.
    + subst q. match goal with Q : text (n_module nm) = _ |- _ => rewrite NM in Q; vm_compute in Q; discriminate Q end.
    + intros m it k I K'. unfold items_of in I. cbn in I.
      destruct m as [| [| m]]; cbn in I; [destruct I as [<- | [<- | []]]; [reflexivity | discriminate] | destruct I as [<- | []]; discriminate | destruct I].
Qed.

(** [pub type A = Vec<A>;  A]. *)
Definition loop := it_ 2 "A" Public KType.
Definition loop_w : world := with_alias (Ir [(0, [loop])]%nat [(S_ "k", root0)]) (Alias [] (of_ "Vec" (names_ "A"))).
Definition after (p : path) (c : pcache) : pcache := match find_path loop_w 20 [root0] p c with Some (_, c) => c | None => c end.
Definition loop1 : pcache := Eval vm_compute in after (p_ ["A"%string]) (PCache fresh []).
Definition loop2 : pcache := Eval vm_compute in after (p_ ["Vec"%string]) loop1.
Lemma loop_on f : rtype loop_w 20 20 f [root0] (names_ "A") [] [] loop2 = None /\
  rtype loop_w 20 20 f [root0] (of_ "Vec" (names_ "A")) [path_of [loop; root0]] [] loop2 = None.
Proof.
  assert (F1 : find_path loop_w 20 [root0] (p_ ["A"%string]) loop2 = Some (Found [loop; root0], loop2)) by (vm_compute; reflexivity).
  assert (F2 : find_path loop_w 20 [root0] (p_ ["Vec"%string]) loop2 = Some (Found [std (StdType (S_ "Vec"))], loop2)) by (vm_compute; reflexivity).
  induction f as [| f [IH1 IH2]]; [split; reflexivity|]. split; cbn [rtype].
  - unfold one_type, names_. change (is_self (p_ ["A"%string]) []) with false. cbv iota. unfold bind at 1. rewrite F1.
    unfold item_type. cbn [i_kind loop it_]. change (existsb (strs_eqb (path_of [loop; root0])) []) with false. cbv iota.
    unfold bind at 1. cbn [params a_params w_alias loop_w with_alias i_kind loop it_ ret length Nat.ltb Nat.leb].
    unfold ret. exact IH2.
  - unfold one_type, of_. change (is_self (p_ ["Vec"%string]) [GType (names_ "A")]) with false. cbv iota. unfold bind at 1. rewrite F2.
    change (bind (rtype loop_w 20 20 f [root0] (names_ "A") [] []) (fun t => ret (RVec t)) loop2 = None).
    unfold bind. now rewrite IH1.
Qed.
Lemma ends_refuted : ~ type_ends_statement.
Proof.
  intro H. destruct (H loop_w [root0] (names_ "A")) as (f & N); [tree_ | own_ | one_ | | place_ |].
  - intro it. cbn. now destruct (i_kind it).
  - apply N. clear.
    assert (F1 : find_path loop_w 20 [root0] (p_ ["A"%string]) (PCache fresh []) = Some (Found [loop; root0], loop1)) by (vm_compute; reflexivity).
    assert (F2 : find_path loop_w 20 [root0] (p_ ["Vec"%string]) loop1 = Some (Found [std (StdType (S_ "Vec"))], loop2)) by (vm_compute; reflexivity).
    destruct f as [| [| f]]; [reflexivity| |].
    + vm_compute. reflexivity.
    + destruct (loop_on f) as [IH1 IH2].
      change (rtype loop_w 20 20 (S (S f))) with (one_type loop_w 20 20 (rtype loop_w 20 20 (S f))).
      unfold one_type, names_. change (is_self (p_ ["A"%string]) []) with false. cbv iota. unfold bind at 1. rewrite F1.
      unfold item_type. cbn [i_kind loop it_]. change (existsb (strs_eqb (path_of [loop; root0])) []) with false. cbv iota.
      unfold bind at 1. cbn [params a_params w_alias loop_w with_alias i_kind loop it_ ret length Nat.ltb Nat.leb].
      cbn [a_ty]. cbn [rtype].
      unfold one_type, of_. change (is_self (p_ ["Vec"%string]) [GType (names_ "A")]) with false. cbv iota. unfold bind at 1. rewrite F2.
      change (bind (rtype loop_w 20 20 f [root0] (names_ "A") [] []) (fun t => ret (RVec t)) loop2 = None).
      unfold bind. now rewrite IH1.
Qed.
