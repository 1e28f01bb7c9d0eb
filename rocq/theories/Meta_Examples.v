(** Concrete items that meet the hypotheses of the metadata theorems, and concrete failures. *)
From Verif Require Import Base Utf8 Meta_Types Meta_Model Meta_Spec.
Open Scope Z_scope.

Definition ex_ty : ty :=
  TOption (TMap TString (TSeq (TCustom (S_ "c::m") (S_ "Guid") TString))).

(** [async fn find(key: &str, limit: u32 = 10, opt: Option<i8> = Some(-3)) -> Result<.., MyError>] *)
Definition ex_fn : fn_meta :=
  Fn (S_ "c::m") (S_ "find") (Some (S_ "find_it")) true
    [Param (S_ "key") TString ByRef None;
     Param (S_ "limit") TU32 ByValue (Some (DLit (LUInt 10 Decimal_ TU32)));
     Param (S_ "opt") (TOption TI8) ByValue (Some (DLit (LSome (DLit (LInt (-3) Decimal_ TI8)))))]
    (Some ex_ty) (Some (TEnum (S_ "c::m") (S_ "MyError"))) None (Some (S_ "Finds things.")).

Example ex_fn_recordable : recordable 5 (MFunc ex_fn).
Proof.
  cbn [recordable ex_fn]. unfold fn_ok, ty_ok, param_ok. cbn.
  repeat split; try reflexivity; try lia; try discriminate.
  repeat (apply Forall_cons || apply Forall_nil); cbn; repeat split; cbn; try reflexivity; try lia.
  - exists 32. split; [reflexivity|lia].
  - exists TI8. split; [reflexivity|]. split; [reflexivity|]. split; [exists 8; split; [reflexivity|lia]|auto].
Qed.
Example ex_fn_written : exists b, write [] (MFunc ex_fn) = Some b /\ length b = 107%nat.
Proof. eexists. split; vm_compute; reflexivity. Qed.
Example ex_fn_read :
  match write [] (MFunc ex_fn) with
  | Some b => match read 5 (b ++ S_ "whatever comes next") with
              | Ok (MFunc f, r) => no_checksum_fn f = ex_fn /\ r = S_ "whatever comes next" /\
                                   f_checksum f = Some (calc_checksum b)
              | _ => False
              end
  | None => False
  end.
Proof. vm_compute. auto. Qed.
(** The stack bound is needed. *)
Example ex_fn_too_deep :
  match write [] (MFunc ex_fn) with Some b => read 2 b = Deep | None => False end.
Proof. vm_compute. reflexivity. Qed.

(** An enum with a negative discriminant and data, and a flat error. *)
Definition ex_enum : enum_meta :=
  Enum (S_ "c") (S_ "Shape") None ShEnum (Some TI8)
    [Variant (S_ "Dot") None (Some (LInt (-1) Decimal_ TI64)) [] None;
     Variant (S_ "Circle") (Some (S_ "C")) (Some (LUInt 7 Decimal_ TU64))
       [Field (S_ "r") None TF64 (Some (DLit (LFloat (S_ "1.5") TF64))) (Some (S_ "radius"));
        Field [] None TBytes None None] (Some (S_ "A circle."))]
    true None.
Example ex_enum_recordable : recordable 3 (MEnum ex_enum).
Proof.
  cbn. unfold ty_ok. cbn. repeat split; try reflexivity; try lia.
  repeat (apply Forall_cons || apply Forall_nil); cbn; unfold variant_ok; cbn;
    repeat split; try reflexivity; try discriminate; auto.
  - exists 64. split; [reflexivity|lia].
  - right. repeat split; reflexivity || lia.
  - exists 64. split; [reflexivity|lia].
  - repeat (apply Forall_cons || apply Forall_nil); unfold field_ok, ty_ok; cbn;
      repeat split; try reflexivity; try discriminate; try lia; auto.
Qed.
Example ex_enum_read :
  match write [] (MEnum ex_enum) with
  | Some b => read 3 (b ++ [xff; x00]) = Ok (MEnum ex_enum, [xff; x00])
  | None => False
  end.
Proof. vm_compute. reflexivity. Qed.

Definition ex_ctor : fn_meta := Fn (S_ "c::imp") (S_ "new") None false [] None None None None.
Example ex_ctor_recordable : recordable 1 (MConstructor (S_ "Store") ex_ctor).
Proof. cbn. unfold fn_ok. cbn. repeat split; auto. Qed.
Example ex_ctor_read :
  match write (S_ "c::types") (MConstructor (S_ "Store") ex_ctor) with
  | Some b => match read 1 b with
              | Ok (MConstructor s f, []) => s = S_ "Store" /\ no_checksum_fn f = ex_ctor
              | _ => False
              end
  | None => False
  end.
Proof. vm_compute. auto. Qed.

(** A name of 256 bytes stops the build, one of 255 does not. *)
Example ex_name_256 : write [] (MNamespace (repeat x61 256) (S_ "n")) = None.
Proof. vm_compute. reflexivity. Qed.
Example ex_name_255 : exists b, write [] (MNamespace (repeat x61 255) (S_ "n")) = Some b.
Proof. eexists. vm_compute. reflexivity. Qed.

(** A function recorded by a crate whose library file was cut: the reader panics. *)
Example ex_panic : read 8 [x00; x05; x61] = Panic.
Proof. vm_compute. reflexivity. Qed.

(** A [u64] argument with the default [-1] compiles, and is read back with an [i64] literal. *)
Definition ex_neg : fn_meta :=
  Fn (S_ "c") (S_ "f") None false
    [Param (S_ "n") TU64 ByValue (Some (DLit (LInt (-1) Decimal_ TI64)))] None None None None.
Example ex_neg_read :
  match write [] (MFunc ex_neg) with
  | Some b => match read 1 b with
              | Ok (MFunc f, []) => no_checksum_fn f = ex_neg
              | _ => False
              end
  | None => False
  end.
Proof. vm_compute. reflexivity. Qed.

(** A default the macro accepts and the reader refuses: a string for an integer argument. *)
Definition ex_bad_default : fn_meta :=
  Fn (S_ "c") (S_ "f") None false
    [Param (S_ "n") TU64 ByValue (Some (DLit (LString (S_ "x"))))] None None None None.
Example ex_bad_default_read :
  match write [] (MFunc ex_bad_default) with Some b => read 1 b = Err | None => False end.
Proof. vm_compute. reflexivity. Qed.

(** The two documented versions of one function. *)
Definition ex_doc_checksum (doc : option str) : option Z :=
  scaffolding_checksum [] (MFunc (set_doc doc ex_fn)).
Example ex_doc_values :
  ex_doc_checksum (Some (S_ "Finds things.")) <> ex_doc_checksum (Some (S_ "Finds things!")).
Proof. vm_compute. discriminate. Qed.
