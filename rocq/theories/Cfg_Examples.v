(** Cases that meet the hypotheses of the theorems on conditional compilation (C57). *)
From Verif Require Import Base Meta_Types Cfg_Types Cfg_Spec Cfg_Model Cfg_Claims Cfg_Proofs Cfg_Refute.

(** After the project's own test (uniffi_parse_rs/src/test_src/feature_detection.rs). *)
Definition x86 : meta := MVal (S_ "target_arch") (Vstr (S_ "x86_64")).
Definition all_ (l : list meta) : meta := MList (S_ "all") l.
Definition any_ (l : list meta) : meta := MList (S_ "any") l.
Definition not_ (m : meta) : meta := MList (S_ "not") [m].
Definition derive (x : string) : meta := MList (S_ "derive") [MWord (S_ x)].
Definition either : meta :=
  any_ [all_ [feature "b"; not_ x86]; all_ [not_ (feature "b"); x86]].
Definition sources : list decl :=
  [ DStruct [cfg (feature "a"); derive "uniffi::Record"] (S_ "A")
      [Part [cfg (feature "b")] (S_ "b"); Part [] (S_ "x")];
    DEnum [derive "uniffi::Enum"; cfg (not_ (feature "a"))] (S_ "NotA") [Variant [] (S_ "V") []];
    DEnum [cfg_attr (feature "a") [derive "uniffi::Enum"];
           cfg_attr (not_ (feature "a")) [derive "uniffi::Error"]] (S_ "Either") [Variant [] (S_ "V") []];
    DImpl [cfg (feature "a"); export] false (S_ "O")
      [Func [cfg (feature "b")] (S_ "gone") [];
       Func [MWord (S_ "uniffi::constructor")] (S_ "new") [Part [] (S_ "x")]];
    DFn (Func [cfg_attr either [export]] (S_ "xor") []);
    DMod [cfg (MWord (S_ "test"))] None (S_ "tests") [DFn (Func [export] (S_ "t") [])];
    DMod [cfg x86] None (S_ "m") [DUse [cfg (feature "b")] (S_ "U"); DFn (Func [export] (S_ "f") [])] ].
Example the_predicate :
  plain linux_options either = true /\ check linux either = Some true /\ holds linux_options either = true.
Proof. vm_compute. auto. Qed.
Example the_sources :
  agrees linux linux_options /\ forallb (tame_decl linux_options) sources = true /\
  reach (read_all linux sources) = Some
    [ XRecord [derive "uniffi::Record"] (S_ "A") [XPart [] (S_ "x")];
      XEnum [derive "uniffi::Enum"] false (S_ "Either") [XVariant [] (S_ "V") []];
      XImpl [export] (S_ "O") [XFunc [MWord (S_ "uniffi::constructor")] (S_ "new") [S_ "x"]] [];
      XFn (XFunc [export] (S_ "xor") []);
      XMod [] (S_ "m") [XFn (XFunc [export] (S_ "f") [])] ] /\
  length (compiled linux_options sources) = 5%nat /\
  forallb free_decl (compiled linux_options sources) = true.
Proof. split; [exact linux_agrees |]. vm_compute. auto. Qed.
Definition all_there : list decl := filter (tame_names linux_options) sources.
Example the_names :
  forallb (tame_decl linux_options) all_there = true /\ forallb (tame_names linux_options) all_there = true /\
  length all_there = 5%nat.
Proof. vm_compute. auto. Qed.
Example nested_settles :
  proper [cfg_attr (feature "a") [cfg (feature "b"); export]] = true /\
  left_over linux_options [cfg_attr (feature "a") [cfg (feature "b"); export]] = [export] /\
  present linux_options [cfg_attr (feature "a") [cfg (feature "b"); export]] = false.
Proof. vm_compute. auto. Qed.
