(** Cases that meet the hypotheses of the theorems. *)
From Verif Require Import Base Meta_Types Names_Model Sig_Spec Sig_Model Sig_Claims Sig_Proofs Sig_Refute.

(** [async fn get(&self, keys: &[u8], opt: Option<Vec<u8>>, id: u8, cb: Box<dyn Cb>) -> Result<Arc<Obj>, E>]
    with a custom type over [i64]. *)
Definition ex_method (a : bool) : rsig :=
  RSig (KMethod (RObject (S_ "m") (S_ "Store"))) a
    [RArg (S_ "keys") Shared (RSlice (RPrim PU8)); RArg (S_ "opt") Owned (ROption (RVec (RPrim PU8)));
     RArg (S_ "id") Owned (RPrim PU8); RArg (S_ "cb") Owned (RBox (RDynCallback (S_ "m") (S_ "Cb")));
     RArg (S_ "name") Shared RStr; RArg (S_ "at") Owned (RCustom (S_ "m") (S_ "Stamp") (RPrim PI64));
     RArg (S_ "other") Shared (RObject (S_ "m") (S_ "Obj"))]
    (RResult (RArc (RObject (S_ "m") (S_ "Obj"))) (REnum (S_ "m") (S_ "E"))).
Example ex_method_meets : forall a, written_sig (ex_method a) = true /\
  existsb hidden_bytes (s_args (ex_method a)) = false /\
  exists f m, macro_fn (ex_method a) = Some f /\ macro_meta (ex_method a) = Some m.
Proof.
  intros a. split; [destruct a; vm_compute; reflexivity|]. split; [destruct a; vm_compute; reflexivity|].
  destruct (macro_fn (ex_method a)) as [f|] eqn:F, (macro_meta (ex_method a)) as [m|] eqn:M; eauto;
    exfalso; destruct a; vm_compute in F, M; discriminate.
Qed.
Example ex_method_type : macro_fn (ex_method false) =
  Some (CFn [cu64; CStruct [ci32; CData]; rs_buffer; cu8; cu64; rs_buffer; ci64; cu64; CPtr rs_status] (Some cu64)).
Proof. vm_compute. reflexivity. Qed.
(** The same method without the borrowed bytes: Ruby too. *)
Definition ex_small : rsig :=
  RSig (KMethod (RObject (S_ "m") (S_ "Store"))) false
    [RArg (S_ "id") Owned (RPrim PU16); RArg (S_ "name") Shared RStr] (RPrim PBool).
Example ex_small_meets : written_sig ex_small = true /\ existsb hidden_bytes (s_args ex_small) = false /\
  existsb borrows_bytes (s_args ex_small) = false /\
  macro_fn ex_small = Some (CFn [cu64; cu16; rs_buffer; CPtr rs_status] (Some ci8)) /\
  exists m, macro_meta ex_small = Some m.
Proof.
  split; [vm_compute; reflexivity|]. split; [vm_compute; reflexivity|]. split; [vm_compute; reflexivity|].
  split; [vm_compute; reflexivity|].
  destruct (macro_meta ex_small) eqn:M; [eauto|vm_compute in M; discriminate].
Qed.
(** A constructor, and a trait with one method of each kind. *)
Definition ex_new : rsig :=
  RSig (KConstructor (RObject (S_ "m") (S_ "Store"))) false [RArg (S_ "path") Owned RString]
    (RResult (RObject (S_ "m") (S_ "Store")) (REnum (S_ "m") (S_ "E"))).
Example ex_new_meets : written_sig ex_new = true /\
  macro_fn ex_new = Some (CFn [rs_buffer; CPtr rs_status] (Some cu64)) /\ exists m, macro_meta ex_new = Some m.
Proof.
  split; [vm_compute; reflexivity|]. split; [vm_compute; reflexivity|].
  destruct (macro_meta ex_new) eqn:M; [eauto|vm_compute in M; discriminate].
Qed.
Definition ex_trait : list rsig :=
  [RSig (KMethod (RDynTrait (S_ "m") (S_ "T") Both)) false
     [RArg (S_ "b") Owned (RVec (RPrim PU8))] RUnit;
   RSig (KMethod (RDynTrait (S_ "m") (S_ "T") Both)) true
     [RArg (S_ "n") Owned (RPrim PU32)] (RResult (RPrim PU8) (REnum (S_ "m") (S_ "E")))].
Example ex_trait_meets : forallb written_sig ex_trait = true /\
  macro_trait ex_trait =
    Some (CStruct [CFn [cu64] None; CFn [cu64] (Some cu64);
                   CFn [cu64; rs_buffer; CData; CPtr rs_status] None;
                   CFn [cu64; cu32; CFn [cu64; CStruct [cu8; rs_status]] None; cu64; CPtr rs_dropped] None]) /\
  exists ms, mapM macro_meta ex_trait = Some (map snd ms) /\ length ms = 2%nat /\
    (forall m, In m ms -> not_first (fst m) = false).
Proof.
  split; [vm_compute; reflexivity|]. split; [vm_compute; reflexivity|].
  set (self := CMethod (TObject (S_ "m") (S_ "T") (ITrait Both))).
  exists [(S_ "put", CSig self false [Param (S_ "b") TBytes ByValue None] None);
          (S_ "get", CSig self true [Param (S_ "n") TU32 ByValue None] (Some TU8))].
  split; [vm_compute; reflexivity|]. split; [reflexivity|].
  intros m [<- | [<- | []]]; vm_compute; reflexivity.
Qed.
(** From UDL: [interface Store { [Throws=E] sequence<string> list([ByRef] bytes key, Store other); }]. *)
Definition ex_udl : csig :=
  CSig (CMethod (TObject (S_ "m") (S_ "Store") IStruct)) false
    [Param (S_ "key") TBytes ByRef None; Param (S_ "other") (TObject (S_ "m") (S_ "Store") IStruct) ByValue None]
    (Some (TSeq TString)).
Example ex_udl_meets : constructs ex_udl /\
  macro_fn (udl_sig ex_udl (Some (TEnum (S_ "m") (S_ "E")))) =
    Some (CFn [cu64; rs_foreign_bytes; cu64; CPtr rs_status] (Some rs_buffer)).
Proof. split; [intros H; vm_compute in H; discriminate|vm_compute; reflexivity]. Qed.
Definition ex_cb : csig :=
  CSig (CMethod (TCallback (S_ "m") (S_ "C"))) false
    [Param (S_ "data") TBytes ByValue None; Param (S_ "s") TString ByRef None] (Some (TOption TU8)).
Example ex_cb_meets : c_async ex_cb = false /\ existsb borrowed_bytes (c_inputs ex_cb) = false /\
  macro_slot (udl_callback_sig ex_cb None) =
    Some (CFn [cu64; rs_buffer; rs_buffer; CPtr rs_buffer; CPtr rs_status] None).
Proof. repeat split; vm_compute; reflexivity. Qed.
