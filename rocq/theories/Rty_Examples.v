(** The hypotheses of the theorems on types can be met. *)
From Verif Require Import Base Meta_Types Path_Types Path_Spec Path_Model Path_Claims Path_Decide Path_Refute
  Pub_Spec Pub_Model Pub_Claims Pub_Decide Pub_Refute Rty_Types Rty_Spec Rty_Model Rty_Claims Rty_Decide Rty_Proofs Rty_Refute.

(** Crate [k]:
<<
    #[derive(uniffi::Error)] pub enum Error { … }
    #[derive(uniffi::Record)] #[uniffi(name = "Config")] pub struct Conf {}
    #[derive(uniffi::Object)] pub struct Store {}
    pub type Result<T, E = Error> = std::result::Result<T, E>;
    pub type ByName<V> = std::collections::HashMap<String, V>;
>> *)
Definition an_error := it_ 1 "Error" Public (KEnum false).
Definition a_conf := Item (Src 2) (S_ "Conf") (Some (S_ "Config")) Public (KRecord false).
Definition store := it_ 3 "Store" Public (KObject false).
Definition result_ := it_ 4 "Result" Public KType.
Definition by_name := it_ 5 "ByName" Public KType.
Definition lib_ir : ir := Ir [(0, [an_error; a_conf; store; result_; by_name])]%nat [(S_ "k", root0)].
Definition lib_alias (it : item) : alias_def :=
  match i_id it with
  | Src 4 => Alias [(S_ "T", None); (S_ "E", Some (names_ "Error"))]
               (SPath (p_ ["std"; "result"; "Result"]%string) [GType (names_ "T"); GType (names_ "E")])
  | Src 5 => Alias [(S_ "V", None)] (SPath (p_ ["std"; "collections"; "HashMap"]%string) [GType (names_ "String"); GType (names_ "V")])
  | _ => Alias [] SUnit
  end.
Definition lib : world := World lib_ir lib_alias (fun _ => SUnit) (fun _ => TBool) (fun _ => ECallback).
Example lib_sources : tree lib_ir /\ own_addresses lib_ir /\ one_of_each lib_ir /\ settled lib_ir NsType /\ all_offered lib_ir.
Proof. split; [tree_ | split; [own_ | split; [one_ | split; [settled_ | offered_]]]]. Qed.
Example lib_plain : plain lib /\ types_only lib.
Proof.
  assert (A : forall P : alias_def -> Prop, P (lib_alias result_) -> P (lib_alias by_name) -> P (Alias [] SUnit) -> forall it, P (lib_alias it)).
  { intros P A B C it. unfold lib_alias. destruct (i_id it) as [n | s]; [|exact C].
    destruct n as [| [| [| [| [| [| n]]]]]]; assumption. }
  split; [|split; [|split]].
  - intro it. cbn [w_alias lib]. apply (A (fun a => plain_alias a = true)); reflexivity.
  - intro it. cbn [w_alias lib]. apply (A (fun a => only_types (a_ty a) = true)); reflexivity.
  - intro it. cbn [w_alias lib]. apply (A (fun a => forall x t, In (x, Some t) (a_params a) -> only_types t = true)).
    + intros x t [E | [E | []]]; [discriminate|]. injection E as _ <-. reflexivity.
    + intros x t [E | []]. discriminate.
    + intros x t [].
  - reflexivity.
Qed.
(** [Result<ByName<Option<Conf>>>]. *)
Definition found_type : sty := of_ "Result" (of_ "ByName" (of_ "Option" (names_ "Conf"))).
Example lib_return :
  match as_return lib 20 20 20 None [root0] found_type (PCache fresh []) with
  | Some (Found (t, e), _) =>
      t = Some (TMap TString (TOption (TRecord (S_ "k") (S_ "Config")))) /\ e = Some (TEnum (S_ "k") (S_ "Error"))
  | _ => False
  end.
Proof. vm_compute. auto. Qed.
(** [Option<&[u8]>] is refused, [&mut [u8]], [&str] and [&Store] are arguments. *)
Example lib_arguments :
  map (fun t => match as_argument lib 20 20 20 None [root0] t (PCache fresh []) with Some (o, _) => Some o | None => None end)
    [of_ "Option" (SRef false (SSlice (names_ "u8"))); SRef true (SSlice (names_ "u8")); SRef false (names_ "str");
     SRef false (names_ "Store"); SRef true (SSlice (names_ "u16"))] =
  [Some (Fail Invalid); Some (Found (TBytes, ByMutRef)); Some (Found (TString, ByRef));
   Some (Found (TObject (S_ "k") (S_ "Store") IStruct, ByRef)); Some (Found (TSeq TU16, ByRef))].
Proof. vm_compute. reflexivity. Qed.
Example lib_self :
  map (fun t => match as_self lib 20 20 20 [root0] t (PCache fresh []) with Some (o, _) => Some o | None => None end)
    [SRef false (names_ "Self"); SPath (p_ ["std"; "sync"; "Arc"]%string) [GType (names_ "Self")]; names_ "Self"; SRef true (names_ "Self")] =
  [Some (Found false); Some (Found true); Some (Fail Invalid); Some (Fail Invalid)].
Proof. vm_compute. reflexivity. Qed.
(** [ByName<Option<Conf>>] and what it denotes. *)
Definition named_type : sty := of_ "ByName" (of_ "Option" (names_ "Conf")).
Definition named_sem : sem := MMap (MBase TString) (MOption (MItem [a_conf; root0])).
Lemma lib_conf : denotes lib (is_ lib) [root0] [] (of_ "Option" (names_ "Conf")) (MOption (MItem [a_conf; root0])).
Proof.
  eapply dn_generic1 with (f := MOption) (x := S_ "Option"); [reflexivity | reflexivity | known_ | reflexivity | reflexivity | reflexivity |].
  eapply dn_item; [reflexivity | reflexivity | | reflexivity]. apply (refers_one _ _ 0%nat); reflexivity.
Qed.
Example lib_denotes : denotes lib (is_ lib) [root0] [] named_type named_sem.
Proof.
  eapply dn_alias with (it := by_name) (up := [root0]); try reflexivity.
  - apply (refers_one _ _ 0%nat); reflexivity.
  - eapply ga_arg; [exact lib_conf | apply ga_nil].
  - eapply dn_generic2 with (f := MMap) (x := S_ "HashMap"); [reflexivity | reflexivity | known_ | reflexivity | reflexivity | reflexivity | |].
    + eapply dn_simple; [reflexivity | reflexivity | known_ | reflexivity | reflexivity].
    + now apply dn_param.
Qed.
Example lib_records : records lib (named_somehow lib_ir) None named_sem (TMap TString (TOption (TRecord (S_ "k") (S_ "Config")))).
Proof.
  apply rc_map; [apply rc_base|]. apply rc_option.
  refine (rc_record lib _ _ a_conf [root0] false [S_ "k"] (S_ "Config") _ _); [reflexivity|].
  exists a_conf, root0, (Names [S_ "k"] (S_ "Config") (Some (S_ "Conf"))). split; [asked_|]. split; [|split; reflexivity].
  split; [reflexivity|]. exists [root0], [a_conf; root0]. split; [eapply pm_root; reflexivity|]. split; [reflexivity|].
  split; [|exists a_conf, [root0]; split; reflexivity]. eapply (of_own _ _ _ _ 0%nat); try reflexivity. right. now left.
Qed.
(** So it is resolved to that, in all numbers of steps from some on. *)
Example lib_found : exists n, forall d b f, (n <= d)%nat -> (n <= b)%nat -> (n <= f)%nat ->
  exists T c', as_type lib d b f None [root0] named_type (PCache fresh []) = Some (Found T, c') /\
    records lib (named_somehow lib_ir) None named_sem T.
Proof.
  destruct lib_sources as (A & B & C & D & E). destruct lib_plain as [F G].
  destruct (type_found_proof lib None [root0] named_type named_sem A B C D E) as [n N].
  - repeat split; try apply F; try apply G.
  - place_.
  - exact lib_denotes.
  - eexists. exact lib_records.
  - exists n. intros d b f X Y Z. apply N; auto. apply reached_start.
Qed.
(** A cycle of aliases that is reported: [type A = B; type B = A]. *)
Definition cyclic : world :=
  World (Ir [(0, [it_ 1 "A" Public KType; it_ 2 "B" Public KType])]%nat [(S_ "k", root0)])
    (fun it => match i_id it with Src 1 => Alias [] (names_ "B") | Src 2 => Alias [] (names_ "A") | _ => Alias [] SUnit end)
    (fun _ => SUnit) (fun _ => TBool) (fun _ => ECallback).
Example cyclic_reported :
  match as_type cyclic 20 20 20 None [root0] (names_ "A") (PCache fresh []) with Some (o, _) => o = Fail Cycle | None => False end.
Proof. vm_compute. reflexivity. Qed.
