(** What libraries built from UDL files do otherwise (C72). *)
From Verif Require Import Base Meta_Types Group_Model Api_Types Api_Spec Api_Model Api_Claims Api_Refute.
From Verif Require Import Univ_Spec Excl_Types Excl_Spec Excl_Model Excl_Claims Excl_Refute Src_Model Stub_Model Stub_Spec Stub_Claims.
Local Open Scope string_scope.
Local Open Scope list_scope.

Definition no_remote : str -> bool := fun _ => false.
Definition no_arc : str -> str -> bool := fun _ _ => false.

(** The items are of UDL; the last cases are left. *)
Ltac udl_trait d t := exists d, t; eexists; split; [left; reflexivity | split; [reflexivity | split; [reflexivity |]]]; repeat split.
Ltac from_tac g :=
  split; [| split; [unfold g; of_group_tac | split; [cbn [g_items g]; objects_tac | split; [cbn [g_items g]; numbered_tac | vm_compute; reflexivity]]]].

(** *** An enum with Display and without Debug, and the other way round *)

Definition colours (u : utrait) : group := Group (S_ "a") (S_ "a") [enum_ "a" "E"; MUniffiTrait u].
Definition display_only := colours (UTDisplay (S_ "E") (builtin (S_ "a") "uniffi_trait_display" [] TString)).
Definition debug_only := colours (UTDebug (S_ "E") (builtin (S_ "a") "uniffi_trait_debug" [] TString)).
Definition api_of (g : group) : api metadata := store_api (store_all (g_items g)).
Lemma display_udl : from_udl display_only (api_of display_only).
Proof.
  split; [| split; [unfold display_only, colours; of_group_tac | split; [cbn [g_items display_only colours]; objects_tac | split; [cbn [g_items display_only colours]; numbered_tac | vm_compute; reflexivity]]]].
  intros m J. cbn [g_items display_only colours] in J. items_cases; cbn [udl_item enum_].
  - repeat split; try constructor; try discriminate.
  - udl_trait (enum_ "a" "E") (TEnum (S_ "a") (S_ "E")).
Qed.
Lemma debug_udl : from_udl debug_only (api_of debug_only).
Proof.
  split; [| split; [unfold debug_only, colours; of_group_tac | split; [cbn [g_items debug_only colours]; objects_tac | split; [cbn [g_items debug_only colours]; numbered_tac | vm_compute; reflexivity]]]].
  intros m J. cbn [g_items debug_only colours] in J. items_cases; cbn [udl_item enum_].
  - repeat split; try constructor; try discriminate.
  - udl_trait (enum_ "a" "E") (TEnum (S_ "a") (S_ "E")).
Qed.
Lemma colours_plain u : no_error_traits (g_items (colours u)) /\ no_trait_traits (g_items (colours u)).
Proof.
  split; intros x v J J' W.
  - cbn [g_items colours] in J. items_cases. injection J as <-. intros [(e & flat & J & N & S) | (m & f & t & J & S & _)].
    + cbn [g_items colours] in J. items_cases. injection J as <-. discriminate S.
    + cbn [g_items colours] in J. items_cases; contradiction S.
  - cbn [g_items colours] in J. items_cases.
Qed.
(** [s] is not in the library, although the item asks for it. *)
Ltac not_in K := vm_compute in K; repeat (destruct K as [K | K]; [discriminate K |]); destruct K.
Ltac of_no_callback := let J := fresh in intros (? & ? & ? & J & _); repeat (destruct J as [J | J]; [discriminate J |]); destruct J.
Lemma asked g u s l : ~ of_callback (g_items g) (MUniffiTrait u) -> In (MUniffiTrait u) (g_items g) -> In s (entry (MUniffiTrait u)) ->
  (forall m s, Excl_Spec.exports (g_items g) m s -> In s l) -> In s l.
Proof. intros N J K X. exact (X _ s (ex_entry _ _ s J N K)). Qed.
Lemma display_missing : ~ exports_all (fun items => no_error_traits items /\ no_trait_traits items).
Proof.
  intros H. destruct (H _ _ no_remote no_arc display_udl (colours_plain _)) as (l & E & X). vm_compute in E. injection E as <-.
  set (u := UTDisplay (S_ "E") (builtin (S_ "a") "uniffi_trait_display" [] TString)).
  assert (N : ~ of_callback (g_items display_only) (MUniffiTrait u)) by of_no_callback.
  assert (K := asked display_only u _ _ N (or_intror (or_introl eq_refl)) (or_introl eq_refl) X). not_in K.
Qed.
Lemma display_unwanted : ~ exports_only (fun items => no_error_traits items /\ no_trait_traits items).
Proof.
  intros H. destruct (H _ _ no_remote no_arc debug_udl (colours_plain _)) as (l & E & X). vm_compute in E. injection E as <-.
  destruct (X (S_ "uniffi_a_fn_method_e_uniffi_trait_display") ltac:(cbn [In]; vm_compute; tauto)) as (m & Y).
  inversion Y as [s J N K | s J K | s J K | s J F K]; subst; cbn [g_items debug_only colours] in J; items_cases; try contradiction F; not_in K.
Qed.

(** *** An error with built-in traits *)

Definition failure : group := Group (S_ "a") (S_ "a")
  [MEnum (Enum (S_ "a") (S_ "E") None (ShError true) None [Variant (S_ "V") None None [] None] false None);
   MUniffiTrait (UTHash (S_ "E") (builtin (S_ "a") "uniffi_trait_hash" [] TU64))].
Lemma failure_udl : from_udl failure (api_of failure).
Proof.
  from_tac failure. intros m J. cbn [g_items failure] in J. items_cases; cbn [udl_item].
  - repeat split; repeat constructor.
  - eexists. exists (TEnum (S_ "a") (S_ "E")). eexists. split; [left; reflexivity | split; [reflexivity | split; [reflexivity |]]]; repeat split.
Qed.
Lemma failure_missing : ~ exports_all (fun items => no_trait_traits items /\ debug_and_display items).
Proof.
  intros H. destruct (H _ _ no_remote no_arc failure_udl) as (l & E & X).
  { split.
    - intros o u J. cbn [g_items failure] in J. items_cases.
    - intros e J. split; intros (f & K); cbn [g_items failure] in K; items_cases. }
  vm_compute in E. injection E as <-.
  set (u := UTHash (S_ "E") (builtin (S_ "a") "uniffi_trait_hash" [] TU64)).
  assert (N : ~ of_callback (g_items failure) (MUniffiTrait u)) by of_no_callback.
  assert (K := asked failure u _ _ N (or_intror (or_introl eq_refl)) (or_introl eq_refl) X). not_in K.
Qed.

(** *** A trait with built-in traits *)

Definition shape_ : group := Group (S_ "a") (S_ "a")
  [MObject (Obj (S_ "a") (S_ "T") None (ITrait RustOnly) None);
   MUniffiTrait (UTHash (S_ "T") (builtin (S_ "a") "uniffi_trait_hash" [] TU64))].
Lemma shape_udl : from_udl shape_ (api_of shape_).
Proof.
  from_tac shape_. intros m J. cbn [g_items shape_] in J. items_cases; cbn [udl_item].
  - repeat split; discriminate.
  - eexists. exists (TObject (S_ "a") (S_ "T") (ITrait RustOnly)). eexists. split; [left; reflexivity | split; [reflexivity | split; [reflexivity |]]]; repeat split.
Qed.
Lemma shape_plain : no_error_traits (g_items shape_) /\ debug_and_display (g_items shape_).
Proof.
  split.
  - intros e u J. cbn [g_items shape_] in J. items_cases.
  - intros e J. cbn [g_items shape_] in J. items_cases.
Qed.
Lemma shape_missing : ~ exports_all (fun items => no_error_traits items /\ debug_and_display items).
Proof.
  intros H. destruct (H _ _ no_remote no_arc shape_udl shape_plain) as (l & E & X). vm_compute in E. injection E as <-.
  set (u := UTHash (S_ "T") (builtin (S_ "a") "uniffi_trait_hash" [] TU64)).
  assert (N : ~ of_callback (g_items shape_) (MUniffiTrait u)) by of_no_callback.
  assert (K := asked shape_ u _ _ N (or_intror (or_introl eq_refl)) (or_introl eq_refl) X). not_in K.
Qed.

(** *** The bindings do not load *)

Lemma no_conf g : keeps_traits (Conf [] []) (g_items g).
Proof. intros m mp n n' _ _ _ []. Qed.
Lemma ci_unlinked : ~ ci_linked (fun items => no_error_traits items /\ no_trait_traits items).
Proof.
  intros H. ci_of (Conf [] []) display_only EB.
  destruct (H _ _ no_remote no_arc _ _ display_udl (colours_plain _) (no_conf _) EB) as (l & E & X). vm_compute in E. injection E as <-.
  assert (K := X (S_ "uniffi_a_fn_method_e_uniffi_trait_display") ltac:(cbn [In b_declared]; vm_compute; tauto)). not_in K.
Qed.
Lemma shape_owned : forall g, In g [shape_] -> owned (g_items g) /\ types_differ (g_items g) /\ numbered (g_items g).
Proof.
  intros g [<- | []]. cbn [g_items shape_]. split; [| split; [differ_tac | numbered_tac]].
  owned_tac. eexists. split; [left; reflexivity |]. refine (conj _ (conj eq_refl Logic.I)). discriminate.
Qed.
Lemma shape_grouped : grouped [shape_].
Proof. split; [repeat constructor; cbn; intuition discriminate |]. constructor; [exact (proj1 (proj2 shape_udl)) | constructor]. Qed.
Lemma pl_unlinked : ~ pl_linked (fun items => no_error_traits items /\ debug_and_display items).
Proof.
  intros H. pl_of (Conf [] []) shape_ EP EB.
  destruct (H [shape_] _ shape_ _ _ no_remote no_arc _ _ shape_grouped ltac:(unfold shape_; no_dashes_tac) shape_owned EP (or_introl eq_refl) (or_introl eq_refl) eq_refl
              shape_udl shape_plain EB) as (l & E & X). vm_compute in E. injection E as <-.
  assert (K := X (S_ "uniffi_a_fn_method_t_uniffi_trait_hash") ltac:(cbn [In b_declared]; vm_compute; tauto)). not_in K.
Qed.

(** *** Asynchronous methods of callback interfaces; mutable borrows of anything but bytes *)

Definition later : fn_meta := Fn (S_ "a") (S_ "later") None true [] None None None None.
Definition awaits : group := Group (S_ "a") (S_ "a") [MCallback (S_ "a") (S_ "C") None; MTraitMethod (S_ "C") 0%Z later].
Lemma awaits_udl : from_udl awaits (api_of awaits).
Proof.
  from_tac awaits. intros m J. cbn [g_items awaits] in J. items_cases; cbn [udl_item].
  - reflexivity.
  - split; [repeat split; constructor |]. exists (S_ "a"), None. left. reflexivity.
Qed.
Ltac none_tac J := repeat (destruct J as [J | J]; [discriminate J |]); destruct J.
Ltac no_traits_tac := split; [| split]; [intros ? ? J; none_tac J | intros ? ? J; none_tac J | intros ? J; none_tac J].
Lemma awaits_otherwise : ~ described_again (fun items => plain_traits items /\ mutable_bytes items).
Proof.
  intros H. destruct (H _ _ no_remote no_arc awaits_udl) as (A & _).
  { split; [no_traits_tac |]. intros m f p J S I. cbn [g_items awaits] in J. items_cases; cbn in S; [contradiction S |]. subst f. destruct I. }
  destruct (A (View (MCallback (S_ "a") (S_ "C") None) [] [MTraitMethod (S_ "C") 0%Z later] [] []) ltac:(vm_compute; tauto) Logic.I) as (mss & E & S & _).
  vm_compute in E. injection E as <-. destruct (S (MTraitMethod (S_ "C") 0%Z later) ltac:(cbn; tauto)) as (m & J & G).
  cbn [concat app] in J. items_cases; inversion G.
Qed.
Definition borrows : fn_meta := Fn (S_ "a") (S_ "f") None false [Param (S_ "x") TString ByMutRef None] None None None None.
Definition lends : group := Group (S_ "a") (S_ "a") [MFunc borrows].
Lemma lends_udl : from_udl lends (api_of lends).
Proof.
  from_tac lends. intros m J. cbn [g_items lends] in J. items_cases; cbn [udl_item]. repeat split; discriminate.
Qed.
Lemma lends_otherwise : ~ described_again (fun items => plain_traits items /\ plain_callbacks items).
Proof.
  intros H. destruct (H _ _ no_remote no_arc lends_udl) as (_ & B).
  { split; [no_traits_tac |]. intros s i f J. cbn [g_items lends] in J. items_cases. }
  destruct (B (MFunc borrows) ltac:(vm_compute; tauto)) as (x & E & G). vm_compute in E. injection E as <-. inversion G.
Qed.

(** *** An error that is passed to Rust *)

Definition takes : group := Group (S_ "a") (S_ "a")
  [MEnum (Enum (S_ "a") (S_ "E") None (ShError true) None [Variant (S_ "V") None None [] None] false None);
   MFunc (fn_ "a" "f" [TEnum (S_ "a") (S_ "E")] None)].
Lemma takes_udl : from_udl takes (api_of takes).
Proof.
  from_tac takes. intros m J. cbn [g_items takes] in J. items_cases; cbn [udl_item].
  - repeat split; repeat constructor.
  - repeat split; discriminate.
Qed.
Lemma argument_unreadable : ~ arguments_readable.
Proof.
  intros H.
  assert (K := H _ _ no_remote no_arc (View (MEnum (Enum (S_ "a") (S_ "E") None (ShError true) None [Variant (S_ "V") None None [] None] false None)) [] [] [] []) _
                 takes_udl ltac:(vm_compute; tauto) eq_refl).
  assert (P : passed_to_rust (g_items takes) (Enum (S_ "a") (S_ "E") None (ShError true) None [Variant (S_ "V") None None [] None] false None)).
  { exists (fn_ "a" "f" [TEnum (S_ "a") (S_ "E")] None), (Param (S_ "x") (TEnum (S_ "a") (S_ "E")) ByValue None).
    split; [right; left; reflexivity | split; [left; reflexivity | reflexivity]]. }
  specialize (K P). vm_compute in K. discriminate K.
Qed.
