(** Concrete cases for C38. *)
From Verif Require Import Base Meta_Types Meta_Eq Reach_Spec Univ_Model Univ_Spec Univ_Proofs.
Local Open Scope string_scope.

Definition fd (n : string) (t : ty) : field := Field (S_ n) None t None None.
Definition rec_ (mp n : string) (fs : list field) : metadata :=
  MRecord (Rec (S_ mp) (S_ n) None fs None).
Definition fn_ (mp n : string) (args : list ty) (ret throws : option ty) : fn_meta :=
  Fn (S_ mp) (S_ n) None false (map (fun t => Param (S_ "x") t ByValue None) args) ret throws
     (Some 1%Z) None.
Definition obj_ (mp n : string) : metadata := MObject (Obj (S_ mp) (S_ n) None IStruct None).
Definition enum_ (mp n : string) : metadata :=
  MEnum (Enum (S_ mp) (S_ n) None (ShError false) None
           [Variant (S_ "V") None None [fd "a" TU8] None] false None).

(** A small crate: a record with a nested field of a type of another crate, an object with a
    constructor and a method that throws, and a function. *)
Definition sample : list metadata :=
  [rec_ "a::sub" "R" [fd "m" (TMap TString (TSeq (TOption (TRecord (S_ "b") (S_ "Ext")))))];
   obj_ "a" "O"; enum_ "a" "E";
   MFunc (fn_ "a" "f" [TRecord (S_ "a") (S_ "R")] (Some (TOption TU8)) None);
   MConstructor (S_ "O") (fn_ "a" "new" [TSeq TI32] None None);
   MMethod (S_ "O") (fn_ "a" "run" [] None (Some (TEnum (S_ "a") (S_ "E"))))].

Lemma sample_plain : plain_constructors sample.
Proof.
  intros self f I. unfold sample in I.
  repeat (destruct I as [E|I]; [first [discriminate E | injection E as <- <-; reflexivity]|]).
  destruct I.
Qed.

Example sample_added : exists i, add_metadata sample = Ok i /\
  known (types i) =
    [TI32; TSeq TI32; TOption TU8; TU8; TEnum (S_ "a") (S_ "E"); TObject (S_ "a") (S_ "O") IStruct;
     TRecord (S_ "b") (S_ "Ext"); TOption (TRecord (S_ "b") (S_ "Ext"));
     TSeq (TOption (TRecord (S_ "b") (S_ "Ext")));
     TMap TString (TSeq (TOption (TRecord (S_ "b") (S_ "Ext"))));
     TRecord (S_ "a") (S_ "R"); TString].
Proof. eexists. split; vm_compute; reflexivity. Qed.

Example sample_mentions : mentioned_unboxed sample (TRecord (S_ "b") (S_ "Ext")).
Proof.
  eexists. eexists. split; [left; reflexivity|]. split; [right; left; reflexivity|].
  split; [reflexivity|]. apply in_value, in_seq, in_option, in_self.
Qed.

(** Two types of one name. *)
Example clash : add_metadata [rec_ "a" "R" [fd "r" (TOption (TRecord (S_ "b") (S_ "R")))]] = Err.
Proof. vm_compute. reflexivity. Qed.

(** A function named like a type that is added later. *)
Example clash_function : add_metadata [MFunc (fn_ "a" "R" [] None None); rec_ "a" "R" []] = Err.
Proof. vm_compute. reflexivity. Qed.

(** A constructor of a record. *)
Example record_constructor :
  add_metadata [rec_ "a" "R" []; MConstructor (S_ "R") (fn_ "a" "new" [] None None)] = Err.
Proof. vm_compute. reflexivity. Qed.

(** In a box nothing is looked at. *)
Definition boxed : list metadata :=
  [rec_ "a" "R" [fd "b" (TBox (TOption (TRecord (S_ "b") (S_ "Ext"))))]].
Example boxed_unknown : plain_constructors boxed /\
  mentioned boxed (TRecord (S_ "b") (S_ "Ext")) /\
  exists i, add_metadata boxed = Ok i /\
    forall t, In t (known (types i)) -> ~ same_type (TRecord (S_ "b") (S_ "Ext")) t.
Proof.
  split; [intros self f [E|[]]; discriminate E|]. split.
  - eexists. eexists. split; [left; reflexivity|]. split; [right; left; reflexivity|].
    apply in_box, in_option, in_self.
  - eexists. split; [vm_compute; reflexivity|]. cbn [types known]. intros t I T.
    repeat (destruct I as [<-|I]; [inversion T; fail|]). destruct I.
Qed.

Definition boxed_clash : list metadata := [rec_ "a" "R" [fd "b" (TBox (TRecord (S_ "b") (S_ "R")))]].
Example boxed_two_types : plain_constructors boxed_clash /\
  mentioned boxed_clash (TRecord (S_ "a") (S_ "R")) /\
  mentioned boxed_clash (TRecord (S_ "b") (S_ "R")) /\
  (exists i, add_metadata boxed_clash = Ok i) /\
  crate_and_sort (TRecord (S_ "a") (S_ "R")) <> crate_and_sort (TRecord (S_ "b") (S_ "R")).
Proof.
  split; [intros self f [E|[]]; discriminate E|]. split; [|split; [|split]].
  - eexists. eexists. split; [left; reflexivity|]. split; [left; reflexivity | apply in_self].
  - eexists. eexists. split; [left; reflexivity|]. split; [right; left; reflexivity|].
    apply in_box, in_self.
  - eexists. vm_compute. reflexivity.
  - vm_compute. discriminate.
Qed.

(** The trait an object implements is not looked at. *)
Definition with_trait : list metadata :=
  [obj_ "a" "O"; MTraitImpl (TObject (S_ "a") (S_ "O") IStruct) (TObject (S_ "b") (S_ "T") (ITrait RustOnly))].
Example trait_unknown : exists i, add_metadata with_trait = Ok i /\
  forall t, In t (known (types i)) -> ~ same_type (TObject (S_ "b") (S_ "T") (ITrait RustOnly)) t.
Proof.
  eexists. split; [vm_compute; reflexivity|]. cbn [types known]. intros t I T.
  repeat (destruct I as [<-|I]; [inversion T; fail|]). destruct I.
Qed.

(** A callback interface with two methods, and without the first of them. *)
Definition log_items : list metadata :=
  [rec_ "a" "R" []; MMethod (S_ "R") (fn_ "a" "len" [] (Some TU8) None);
   MCallback (S_ "a") (S_ "Log") None; MTraitMethod (S_ "Log") 0 (fn_ "a" "put" [TString] None None);
   MTraitMethod (S_ "Log") 1 (fn_ "a" "end" [] None None)].
Example log_added : plain_constructors log_items /\ (exists i, add_metadata log_items = Ok i) /\
  log_items = (firstn 2 log_items ++ MCallback (S_ "a") (S_ "Log") None :: skipn 3 log_items)%list /\
  no_callback (S_ "Log") (firstn 2 log_items) /\ no_callback (S_ "Log") (skipn 3 log_items) /\
  length (method_numbers (S_ "Log") (skipn 3 log_items)) = 2.
Proof.
  split; [intros self f I; unfold log_items in I;
          repeat (destruct I as [E|I]; [discriminate E|]); destruct I|].
  split; [eexists; vm_compute; reflexivity|]. split; [reflexivity|].
  split; [|split; [|vm_compute; reflexivity]]; intros mp doc I; cbn [log_items firstn skipn] in I;
    repeat (destruct I as [E|I]; [discriminate E|]); destruct I.
Qed.
Example log_without_first : add_metadata
  [MCallback (S_ "a") (S_ "Log") None; MTraitMethod (S_ "Log") 1 (fn_ "a" "end" [] None None)] = Err.
Proof. vm_compute. reflexivity. Qed.
Example method_without_owner : add_metadata [MMethod (S_ "R") (fn_ "a" "len" [] (Some TU8) None)] = Err.
Proof. vm_compute. reflexivity. Qed.
