(** A file that meets the hypotheses of the theorems of Udl_Props.v, and what is read of it. *)
From Verif Require Import Base Meta_Types Lit_Spec Lit_Model Doc_Model Udl_Types Udl_Spec Udl_Model Udl_Claims Udl_Final Udl_Refute.
From Coq Require Import Permutation.
Open Scope string_scope.

(** [namespace ns { [Throws=E] u32 add([ByRef] Rec r, optional sequence<Url>? u = null); };]
    [[Error] enum E { "A", "B" };]
    [[Custom] typedef string Url;]
    [[Traits=(Eq, Hash)] dictionary Rec { Url u; boolean b = true; };]
    [[Enum] interface V { P(); Q(u32 n, Rec r); };]
    [interface Obj { constructor(); [Async, Self=ByArc] void go([ByRef] Rec r); };]
    [callback interface Cb { V ask(record<DOMString, i8> m); };]
    [[External="other"] typedef trait T;] *)
Definition arg (a : wattrs) (t : wty) (x : string) : warg := WArg a false t (S_ x) None.
Definition by_ref : wattrs := Some [ANoArgs (S_ "ByRef")].
Definition add : wop := WOp (Some [AIs (S_ "Throws") (S_ "E") false]) None false (RType (WId (S_ "u32"))) (Some (S_ "add"))
  [arg by_ref (WId (S_ "Rec")) "r"; WArg None true (WNull (WSeq (WId (S_ "Url")))) (S_ "u") (Some UNull)] (Some (S_ " Adds.")).
Definition the_ns : def := DNamespace None (S_ "ns") (Some (S_ "All.")) [MemOp add].
Definition the_error : def := DEnum (Some [ANoArgs (S_ "Error")]) (S_ "E") None [(S_ "A", None); (S_ "B", Some (S_ "Bad."))].
Definition the_url : def := DTypedef (Some [ANoArgs (S_ "Custom")]) (WId (S_ "string")) (S_ "Url").
Definition the_rec : def := DDict (Some [AList (S_ "Traits") [S_ "Eq"; S_ "Hash"]]) (S_ "Rec") false None
  [WField None (WId (S_ "Url")) (S_ "u") None None; WField None WBool (S_ "b") (Some (UBool true)) None].
Definition variant_p : wop := WOp None None false (RType (WId (S_ "P"))) None [] None.
Definition variant_q : wop := WOp None None false (RType (WId (S_ "Q"))) None [arg None (WId (S_ "u32")) "n"; arg None (WId (S_ "Rec")) "r"] None.
Definition the_enum : def := DIface (Some [ANoArgs (S_ "Enum")]) (S_ "V") false None [MemOp variant_p; MemOp variant_q].
Definition go : wop := WOp (Some [ANoArgs (S_ "Async"); by_arc]) None false (RType (WId (S_ "void"))) (Some (S_ "go"))
  [arg by_ref (WId (S_ "Rec")) "r"] None.
Definition the_obj : def := DIface None (S_ "Obj") false None [MemCons None [] None; MemOp go].
Definition ask : wop := WOp None None false (RType (WId (S_ "V"))) (Some (S_ "ask")) [arg None (WMap WDom (WId (S_ "i8"))) "m"] None.
Definition the_cb : def := DCallback None (S_ "Cb") false None [MemOp ask].
Definition the_ext : def := DTypedef (Some [AIs (S_ "External") (S_ "other") true]) (WId (S_ "trait")) (S_ "T").
Definition a_file : list def := [the_ns; the_error; the_url; the_rec; the_enum; the_obj; the_cb; the_ext].
Definition read := read_udl here convert_default convert_docstring.

Definition url : ty := TCustom here (S_ "Url") TString.
Definition rec : ty := TRecord here (S_ "Rec").
Definition the_items : list uitem :=
  [IFunc (UFn (S_ "add") false
     [(Param (S_ "r") rec ByRef None, false); (Param (S_ "u") (TOption (TSeq url)) ByValue (Some (DLit LNone)), true)]
     (Some TU32) (Some (TEnum here (S_ "E"))) (Some (S_ "Adds.")));
   IEnum (S_ "E") (ShError true) false [Variant (S_ "A") None None [] None; Variant (S_ "B") None None [] (Some (S_ "Bad."))] false None;
   ITraitOf (S_ "Rec") (S_ "Eq") [trait_fn "uniffi_trait_eq_eq" (Some rec) TBool; trait_fn "uniffi_trait_eq_ne" (Some rec) TBool];
   ITraitOf (S_ "Rec") (S_ "Hash") [trait_fn "uniffi_trait_hash" None TU64];
   IRecord (S_ "Rec") false [Field (S_ "u") None url None None; Field (S_ "b") None TBool (Some (DLit (LBool true))) None] None;
   IEnum (S_ "V") ShEnum false
     [Variant (S_ "P") None None [] None;
      Variant (S_ "Q") None None [Field (S_ "n") None TU32 None None; Field (S_ "r") None rec None None] None] false None;
   ICons (S_ "Obj") (UFn (S_ "new") false [] None None None);
   IMethod (S_ "Obj") (UFn (S_ "go") true [(Param (S_ "r") rec ByRef None, false)] None None None) true;
   IObject (S_ "Obj") IStruct false None;
   ITraitMethod (S_ "Cb") 0
     (UFn (S_ "ask") false [(Param (S_ "m") (TMap TString TI8) ByValue None, false)] (Some (TEnum here (S_ "V"))) None None) false;
   ICallback (S_ "Cb") None;
   ICustom here (S_ "Url") TString].
Definition the_group : group := Group (S_ "ns") (Some (S_ "All.")) the_items.
Example ex_read : match read a_file with
  | UOk g => g_namespace g = g_namespace the_group /\ g_doc g = g_doc the_group /\ length (g_items g) = 12
  | _ => False end.
Proof. vm_compute. repeat split. Qed.
Ltac unfold_file := unfold a_file, the_ns, the_error, the_url, the_rec, the_enum, the_obj, the_cb, the_ext, add, go, ask, variant_p, variant_q.
Example ex_unshadowed : unshadowed a_file.
Proof. unfold_file. no_names. Qed.
Example ex_plain : plain_variants a_file.
Proof.
  unfold_file. intros a x i doc ms o I F J. cbn [In] in I. all_in I; try discriminate I; injection I as <- <- <- <- <-.
  - cbn [In] in J. all_in J; injection J as <-; split; [reflexivity | discriminate | reflexivity | discriminate].
  - destruct F as [[]|[]].
Qed.
Example ex_once : attrs_once a_file.
Proof.
  unfold_file. intros d a I J. cbn [In] in I. all_in I; subst d; cbn [attr_lists In map member_attrs op_attrs] in J; all_in J; subst a;
  unfold by_arc; (split; cbn [attrs_of In]; [intros ? ? ? ? ? K L | intros ? ? ? K L]; all_in K; all_in L; congruence).
Qed.
Example ex_no_traits : no_enum_traits a_file.
Proof. unfold_file. intros a x doc vs l I L. cbn [In] in I. all_in I; try discriminate I. injection I as <- _ _ _. destruct L as [L|[]]. discriminate L. Qed.
Example ex_plainly : plainly_written a_file.
Proof. exact (conj ex_unshadowed (conj ex_plain (conj ex_once ex_no_traits))). Qed.
Example ex_customs : customs_after here a_file.
Proof.
  intros pre a t x post E C. assert (I : In (DTypedef a t x) a_file) by (rewrite E; apply in_or_app; right; left; reflexivity).
  unfold a_file, the_ns, the_error, the_url, the_rec, the_enum, the_obj, the_cb, the_ext in I. cbn [In] in I. all_in I; try discriminate I; injection I as <- <- <-.
  - exists TString. apply ti_builtin with (x := "string"); [left; reflexivity|]. intros (d & J & N).
    apply (ex_unshadowed "string" TString (or_introl eq_refl)). exists d. split; [rewrite E; apply in_or_app; left; exact J | exact N].
  - destruct C as [[C|[]]|(c & q & [C|[]])]; [discriminate C|]. apply (f_equal (fun w => match w with AIs x _ _ => x | _ => [] end)) in C.
    vm_compute in C. discriminate C.
Qed.
(** What the file says is what is read. *)
Definition items_of (r : ures group) : list uitem := match r with UOk g => g_items g | _ => [] end.
Example ex_items : forall M, In M (items_of (read a_file)) <-> says here convert_default convert_docstring a_file M.
Proof.
  intros M. assert (E : exists g, read a_file = UOk g) by (eexists; vm_compute; reflexivity). destruct E as (g & E). rewrite E. cbn [items_of]. split.
  - exact (reads_soundly_proof _ _ _ _ _ _ (conj ex_unshadowed ex_plain) E).
  - exact (reads_fully_proof _ _ _ _ _ _ (conj ex_unshadowed (conj ex_once ex_no_traits)) E).
Qed.
Example ex_listed : Permutation (items_of (read a_file)) the_items.
Proof. vm_compute. apply Permutation_refl. Qed.
(** It is legal. *)
Example ex_legal : legal here convert_default convert_docstring a_file.
Proof.
  assert (E : exists g, read a_file = UOk g) by (eexists; vm_compute; reflexivity). destruct E as (g & E).
  assert (K := fun d => reads_all_proof _ _ _ _ _ d ex_plainly E). refine (conj _ (conj _ _)).
  - exists (g_namespace g), (g_doc g). exact (reads_namespace_proof _ _ _ _ _ E).
  - intros d I. specialize (K d I). unfold a_file in I. cbn [In] in I.
    all_in I; subst d; unfold the_ns, the_error, the_url, the_rec, the_enum, the_obj, the_cb, the_ext in *; cbn [def_ok covers] in *.
    + split; [reflexivity|]. intros b J. destruct (K b J) as (o & f & -> & F & _). exists o, f. split; [reflexivity | exact F].
    + split.
      * split; [nodup|]. constructor; [|constructor]. left. exists "Error". split; [right; left; reflexivity | reflexivity].
      * intros l k [L|[]]. discriminate L.
    + split; [right; eexists; split; [reflexivity | left; reflexivity]|]. left. left. left. reflexivity.
    + destruct K as ((r & gs & F & _) & _). refine (conj _ (conj _ (conj eq_refl _))).
      * split; [nodup|]. constructor; [|constructor]. right. eexists. reflexivity.
      * intros l k [L|[]] J. injection L as <-. cbn [In] in J. all_in J; subst k; [exists "Eq" | exists "Hash"]; (split; [reflexivity|]); cbn [In]; tauto.
      * exists gs. exact F.
    + refine (conj eq_refl (conj _ _)); [intros l k [L|[]]; discriminate L|]. left. destruct K as ([(_ & sh & r & vs & F & _) | (N & _)] & _).
      * refine (conj _ (conj _ (conj _ _))).
        -- split; [nodup|]. constructor; [|constructor]. left. exists "Enum". split; [left; reflexivity | reflexivity].
        -- left. left. reflexivity.
        -- intros (_ & [L|[]]). apply (f_equal (fun w => match w with ANoArgs x => x | _ => [] end)) in L. vm_compute in L. discriminate L.
        -- exists vs. exact F.
      * contradiction N. left. reflexivity.
    + refine (conj eq_refl (conj _ _)); [intros l k []|]. right. destruct K as ([([[]|[]] & _) | (_ & _ & _ & K)] & _).
      refine (conj _ (conj _ _)); [split; constructor | intros ([] & _)|]. exists IStruct, [S_ "new"; S_ "go"].
      refine (conj _ (conj _ _)); [apply ii_struct; intros [] | | nodup].
      destruct (K _ (or_introl eq_refl)) as [(b & args & d & f & Eb & C & _) | (o & f & arc & Eb & _)]; [|discriminate Eb].
      destruct (K _ (or_intror (or_introl eq_refl))) as [(b' & args' & d' & f' & Eb' & _) | (o' & f' & arc' & Eb' & M & _)]; [discriminate Eb'|].
      injection Eb as <- <- <-. injection Eb' as <-. constructor; [|constructor; [|constructor]].
      * assert (Nf : u_name f = S_ "new") by (destruct C as (_ & [(q & [])|(_ & C)] & _); exact C). rewrite <- Nf. apply mo_cons; [reflexivity | exact C].
      * assert (Nf : u_name f' = S_ "go") by (destruct M as (_ & _ & M & _); injection M as M; symmetry; exact M). rewrite <- Nf. exact (mo_method _ _ _ _ _ _ _ _ M).
    + refine (conj eq_refl (conj eq_refl _)). intros b J. apply In_nth_error in J as (i & J). destruct K as (_ & K).
      destruct (K i b J) as (o & f & arc & -> & M & _). exists o, f, arc. split; [reflexivity | exact M].
    + split; [right; eexists; split; [reflexivity|]; right; eexists; eexists; eexists; split; [left; reflexivity | reflexivity]|].
      right. exists "trait", (TObject here (S_ "T") (ITrait RustOnly)). split; [left; reflexivity | constructor].
  - intros pre d e post x Ef J N. unfold a_file in Ef.
    do 8 (destruct pre as [|? pre]; [injection Ef as <- <-; cbn [def_name the_ns the_error the_url the_rec the_enum the_obj the_cb the_ext] in N; try discriminate N;
      injection N as <-; cbn [In] in J; all_in J; subst e; cbn [def_name the_ns the_error the_url the_rec the_enum the_obj the_cb the_ext];
      intros N'; vm_compute in N'; discriminate N' | injection Ef as _ Ef]). destruct pre; discriminate Ef.
Qed.
(** In another order. *)
Example ex_order : exists g1 g2, read a_file = UOk g1 /\ read (rev a_file) = UOk g2 /\ g_items g1 <> g_items g2 /\
  forall M, In M (g_items g1) <-> In M (g_items g2).
Proof.
  assert (E1 : exists g, read a_file = UOk g) by (eexists; vm_compute; reflexivity). destruct E1 as (g1 & E1).
  assert (E2 : exists g, read (rev a_file) = UOk g) by (eexists; vm_compute; reflexivity). destruct E2 as (g2 & E2).
  exists g1, g2. refine (conj E1 (conj E2 (conj _ _))).
  - vm_compute in E1, E2. injection E1 as <-. injection E2 as <-. discriminate.
  - exact (order_free_proof _ _ _ _ _ _ _ (Permutation_rev a_file) ex_plainly E1 E2).
Qed.
Example ex_throws_known : constructors_throw_known a_file.
Proof.
  unfold_file. intros a x i doc ms b args d e I J K. cbn [In] in I. all_in I; try discriminate I; injection I as <- <- <- <- <-; cbn [In] in J; all_in J; try discriminate J.
  injection J as <- _ _. destruct K as (q & []).
Qed.
Close Scope string_scope.
