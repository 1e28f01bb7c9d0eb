(** Metadata items can be compared: Rust derives [PartialEq] for them (uniffi_meta/src/lib.rs
    l.574). *)
From Verif Require Import Base Meta_Types.

Definition byte_eq_dec (a b : byte) : {a = b} + {a <> b}.
Proof.
  refine (match byte_eqb a b as x return reflect (a = b) x -> _ with
          | true => fun r => left _
          | false => fun r => right _
          end (byte_eqb_spec a b)); inversion r; assumption.
Defined.

Definition str_eq_dec (a b : str) : {a = b} + {a <> b}.
Proof. exact (list_eq_dec byte_eq_dec a b). Defined.

Definition opt_dec {A} (d : forall a b : A, {a = b} + {a <> b}) (a b : option A) :
  {a = b} + {a <> b}.
Proof. decide equality. Defined.

Definition obj_impl_eq_dec (a b : obj_impl) : {a = b} + {a <> b}.
Proof. repeat decide equality. Defined.

Definition ty_eq_dec : forall a b : ty, {a = b} + {a <> b}.
Proof. decide equality; try apply str_eq_dec; apply obj_impl_eq_dec. Defined.

Definition radix_eq_dec (a b : radix) : {a = b} + {a <> b}.
Proof. decide equality. Defined.

Fixpoint literal_eq_dec (a b : literal) {struct a} : {a = b} + {a <> b}
with default_eq_dec (a b : default) {struct a} : {a = b} + {a <> b}.
Proof.
  - decide equality; try apply Bool.bool_dec; try apply str_eq_dec; try apply Z.eq_dec;
      try apply radix_eq_dec; apply ty_eq_dec.
  - decide equality.
Defined.

Definition param_eq_dec (a b : param) : {a = b} + {a <> b}.
Proof.
  decide equality; try apply str_eq_dec; try apply ty_eq_dec.
  - apply (opt_dec default_eq_dec).
  - decide equality.
Defined.

Definition fn_eq_dec (a b : fn_meta) : {a = b} + {a <> b}.
Proof.
  decide equality; try apply (opt_dec str_eq_dec); try apply (opt_dec ty_eq_dec);
    try apply (opt_dec Z.eq_dec); try apply (list_eq_dec param_eq_dec); try apply str_eq_dec;
    apply Bool.bool_dec.
Defined.

Definition field_eq_dec (a b : field) : {a = b} + {a <> b}.
Proof.
  decide equality; try apply (opt_dec str_eq_dec); try apply (opt_dec default_eq_dec);
    try apply str_eq_dec; apply ty_eq_dec.
Defined.

Definition variant_eq_dec (a b : variant) : {a = b} + {a <> b}.
Proof.
  decide equality; try apply (opt_dec str_eq_dec); try apply (opt_dec literal_eq_dec);
    try apply (list_eq_dec field_eq_dec); apply str_eq_dec.
Defined.

Definition record_eq_dec (a b : record_meta) : {a = b} + {a <> b}.
Proof.
  decide equality; try apply (opt_dec str_eq_dec); try apply (list_eq_dec field_eq_dec);
    apply str_eq_dec.
Defined.

Definition enum_eq_dec (a b : enum_meta) : {a = b} + {a <> b}.
Proof.
  decide equality; try apply (opt_dec str_eq_dec); try apply (opt_dec ty_eq_dec);
    try apply (list_eq_dec variant_eq_dec); try apply str_eq_dec; try apply Bool.bool_dec.
  decide equality. apply Bool.bool_dec.
Defined.

Definition object_eq_dec (a b : object_meta) : {a = b} + {a <> b}.
Proof.
  decide equality; try apply (opt_dec str_eq_dec); try apply obj_impl_eq_dec; apply str_eq_dec.
Defined.

Definition utrait_eq_dec (a b : utrait) : {a = b} + {a <> b}.
Proof. decide equality; try apply fn_eq_dec; apply str_eq_dec. Defined.

Definition metadata_eq_dec (a b : metadata) : {a = b} + {a <> b}.
Proof.
  decide equality; try apply str_eq_dec; try apply fn_eq_dec; try apply object_eq_dec;
    try apply (opt_dec str_eq_dec); try apply record_eq_dec; try apply enum_eq_dec;
    try apply Z.eq_dec; try apply ty_eq_dec; apply utrait_eq_dec.
Defined.
