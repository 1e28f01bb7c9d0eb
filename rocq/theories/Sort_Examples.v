(** Concrete definitions for C35. *)
From Coq Require Import Relation_Operators.
From Verif Require Import Base Meta_Types Canon_Model Sort_Model Sort_Spec.

Definition rec_ (n : string) : ty := TRecord (S_ "m") (S_ n).

(** A record that uses a sequence of another record, listed in the wrong order, and an interface. *)
Definition defs1 : list type_definition :=
  [ TDInterface (TObject (S_ "m") (S_ "Api") IStruct) []
      [Callable [rec_ "Outer"; TU32] (Some (TSeq (rec_ "Inner"))) None] None;
    TDRecord (rec_ "Outer") [TSeq (rec_ "Inner"); TString];
    TDSequence (TSeq (rec_ "Inner")) (rec_ "Inner");
    TDSimple TString; TDSimple TU32;
    TDRecord (rec_ "Inner") [TU32] ].

Example defs1_sorted :
  sort_type_definitions defs1 = Ok
    [ TDSimple TU32; TDRecord (rec_ "Inner") [TU32];
      TDSequence (TSeq (rec_ "Inner")) (rec_ "Inner"); TDSimple TString;
      TDRecord (rec_ "Outer") [TSeq (rec_ "Inner"); TString];
      TDInterface (TObject (S_ "m") (S_ "Api") IStruct) []
        [Callable [rec_ "Outer"; TU32] (Some (TSeq (rec_ "Inner"))) None] None ].
Proof. vm_compute. reflexivity. Qed.

Example defs1_ok : NoDup (map self_type defs1) /\ names_distinct defs1.
Proof.
  split.
  - cbn. repeat constructor; cbn; intuition discriminate.
  - assert (H : forall t, in_defs defs1 t ->
              In t [TObject (S_ "m") (S_ "Api") IStruct; rec_ "Outer"; TSeq (rec_ "Inner");
                    rec_ "Inner"; TString; TU32]).
    { intros t [d [D M]]. repeat (destruct D as [<-|D]); try destruct D;
        (destruct M as [<-|M]; [cbn; tauto|]); cbn in M; try tauto.
      - destruct M as [[]|[[c [[<-|[]] M]]|[vms [c [Q _]]]]]; [|discriminate Q].
        destruct M as [M|[M|M]]; cbn in M.
        + destruct M as [<-|[<-|[]]]; cbn; tauto.
        + injection M as <-. cbn. tauto.
        + discriminate M.
      - destruct M as [<-|[<-|[]]]; cbn; tauto.
      - subst t. cbn. tauto.
      - destruct M as [<-|[]]; cbn; tauto. }
    intros t t' T T' E. apply H in T, T'. cbn in T, T'.
    decompose [or] T; decompose [or] T'; subst; try contradiction; try reflexivity; discriminate E.
Qed.

Example defs1_needs : needs (nth 1 defs1 (TDSimple TU8)) (nth 2 defs1 (TDSimple TU8)).
Proof. left. reflexivity. Qed.

(** FFI definitions: a vtable and the function types in it. *)
Definition ffi1 : list ffi_definition :=
  [ FDRustFunction (S_ "init_vtable") [FRef (FStruct (S_ "VTable"))] None;
    FDStruct (S_ "VTable") [FFunction (S_ "Free"); FFunction (S_ "Method0")];
    FDFunctionType (S_ "Method0") [FOther; FMutRef (FStruct (S_ "CallStatus"))] None;
    FDFunctionType (S_ "Free") [FOther] None;
    FDStruct (S_ "CallStatus") [FOther; FStruct (S_ "RustBuffer")];
    FDStruct (S_ "RustBuffer") [FOther; FOther] ].

Example ffi1_ok : NoDup (map ffi_item_name ffi1).
Proof. cbn. repeat constructor; cbn; intuition discriminate. Qed.

Example ffi1_sorted : exists r, sort_ffi_definitions ffi1 = Ok r /\
  map ffi_item_name r =
  map S_ ["Free"%string; "RustBuffer"%string; "CallStatus"%string; "Method0"%string;
          "VTable"%string; "init_vtable"%string].
Proof. eexists. split; vm_compute; reflexivity. Qed.

(** A record that uses its namesake from another crate. *)
Definition mine : type_definition :=
  TDRecord (TRecord (S_ "mine") (S_ "Config")) [TRecord (S_ "theirs") (S_ "Config")].
Definition theirs : type_definition := TDExternal (TRecord (S_ "theirs") (S_ "Config")).

Lemma namesake_dropped :
  exists defs r d, NoDup (map self_type defs) /\ sort_type_definitions defs = Ok r /\
    In d defs /\ ~ In d r.
Proof.
  exists [mine; theirs], [theirs], mine.
  refine (conj _ (conj _ (conj (or_introl eq_refl) _))).
  - cbn. repeat constructor; cbn; intuition discriminate.
  - vm_compute. reflexivity.
  - intros [E|[]]. discriminate E.
Qed.
