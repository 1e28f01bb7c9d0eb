(** What is claimed of the declarations: the words of the theorems. *)
From Verif Require Import Base Meta_Types Names_Model Sig_Spec Sig_Model.

(** The types users write: not the two the macros put in. *)
Fixpoint written (t : rty) : bool :=
  match t with
  | RForeignBytes | RForeignBytesMut => false
  | RVec t | RSlice t | ROption t | RSet t | RBox t | RArc t | RCustom _ _ t | RAlias t => written t
  | RMap k v => written k && written v
  | RResult t e => written t && written e
  | _ => true
  end.
(** Bytes, however written. *)
Definition bytes_like (t : rty) : bool :=
  match head t with
  | RVec u | RSlice u => match head u with RPrim PU8 => true | _ => false end
  | _ => false
  end.
(** A reference to bytes that is not [&[u8]] to the letter. *)
Definition hidden_bytes (a : rarg) : bool :=
  match ra_ref a with Shared => bytes_like (ra_ty a) && negb (is_u8_slice (ra_ty a)) | _ => false end.
(** A signature as users can write it. *)
Definition written_sig (s : rsig) : bool :=
  forallb (fun a => written (ra_ty a)) (s_args s) && written (s_ret s) &&
  match s_kind s with KMethod t | KConstructor t => written t | KFunction => true end.

(** Bytes taken by reference. *)
Definition borrows_bytes (a : rarg) : bool :=
  match ra_ref a with Owned => false | _ => is_u8_slice (ra_ty a) end.

(** Swift, Python and Kotlin declare the function for [c] as [f]; the JVM has no unsigned numbers and
    JNA returns small ones widened. *)
Definition declared (c : csig) (f : cty) : Prop :=
  sw_fn (ci_fn c) = f /\ py_fn (pl_fn c) = f /\ kt_fn (ci_fn c) = jvm_fn f.

(** All four declare the slot of a table for the method [c] as [t]. *)
Definition slot_right (c : csig) (t : cty) : Prop :=
  sw_c (ci_slot c) = t /\ py_c (pl_slot c) = t /\ kt_c (ci_slot c) = signless t /\
  untyped (rb_c (ci_slot c)) = untyped t.

(** All four declare the table of the methods [ms], and the function that takes it, as they are; the
    configuration may have [excluded] methods by name. *)
Definition table_right (excluded : str -> bool) (ms : list (str * csig)) (t : cty) : Prop :=
  (sw_c (ci_table excluded ms) = t /\ sw_fn (ci_init (ci_table excluded ms)) = macro_init t) /\
  (py_c (pl_table ms) = t /\ py_fn (pl_init (pl_table ms)) = macro_init t) /\
  (kt_c (ci_table excluded ms) = signless t /\ kt_fn (ci_init (ci_table excluded ms)) = jvm_fn (macro_init t)) /\
  (untyped (rb_c (ci_table excluded ms)) = untyped t /\
   untyped (rb_fn (ci_init (ci_table excluded ms))) = untyped (macro_init t)).

(** What the UDL front end makes of a constructor: it returns the object. *)
Definition constructs (c : csig) : Prop :=
  c_kind c = CConstructor -> exists mp n, c_ret c = Some (TObject mp n IStruct).
