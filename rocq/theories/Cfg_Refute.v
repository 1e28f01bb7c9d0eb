(** Where conditional compilation goes wrong (C57). *)
From Verif Require Import Base Meta_Types Cfg_Types Cfg_Spec Cfg_Model Cfg_Claims Cfg_Proofs.

Definition linux : env :=
  Env [S_ "a"] (S_ "x86_64") (S_ "linux") (S_ "gnu") (S_ "unknown") (Some true) (Some (S_ "64")).
Definition linux_options : conf := options linux ++ [(S_ "unix", None); (S_ "target_family", Some (S_ "unix"))].
Lemma linux_agrees : agrees linux linux_options.
Proof.
  apply agrees_options. intros k v [I | [I | []]]; injection I as <- <-; vm_compute; reflexivity.
Qed.
Definition feature (x : string) : meta := MVal (S_ "feature") (Vstr (S_ x)).
Definition cfg (p : meta) : meta := MList (S_ "cfg") [p].
Definition cfg_attr (p : meta) (l : list meta) : meta := MList (S_ "cfg_attr") (p :: l).
Definition export : meta := MWord (S_ "uniffi::export").

Lemma every_predicate_refuted_ : ~ every_predicate_statement.
Proof.
  intro H. specialize (H linux linux_options (MWord (S_ "unix")) linux_agrees eq_refl). vm_compute in H. discriminate.
Qed.
Lemma never_too_much_refuted_ : ~ never_too_much_statement.
Proof.
  intro H. specialize (H linux linux_options (MList (S_ "not") [MWord (S_ "unix")]) linux_agrees eq_refl eq_refl).
  vm_compute in H. discriminate.
Qed.
Lemma constant_refuted_ : ~ constant_statement.
Proof. intro H. specialize (H linux linux_options linux_agrees). vm_compute in H. discriminate. Qed.
Lemma no_error_refuted_ : ~ no_error_statement.
Proof.
  intro H. destruct (H linux linux_options (MWord (S_ "feature")) linux_agrees eq_refl) as [b B].
  vm_compute in B. discriminate.
Qed.
Lemma nested_refuted_ : ~ nested_statement.
Proof.
  intro H.
  specialize (H linux linux_options [cfg_attr (feature "a") [cfg (feature "b")]; export] linux_agrees eq_refl).
  vm_compute in H. discriminate.
Qed.
Lemma arguments_refuted_ : ~ arguments_statement.
Proof.
  intro H.
  specialize (H linux linux_options
    (Func [export] (S_ "f") [Part [] (S_ "x"); Part [cfg (feature "b")] (S_ "y")]) linux_agrees eq_refl eq_refl).
  vm_compute in H. discriminate.
Qed.
Lemma macros_refuted_ : ~ macros_statement.
Proof.
  intro H. specialize (H linux linux_options [cfg (feature "b")] McCustom (S_ "T") linux_agrees eq_refl).
  vm_compute in H. discriminate.
Qed.
Lemma file_heads_refuted_ : ~ file_heads_statement.
Proof.
  intro H.
  specialize (H linux linux_options [] [cfg (feature "b")] (S_ "m") [DFn (Func [export] (S_ "f") [])]
    linux_agrees eq_refl eq_refl eq_refl).
  vm_compute in H. discriminate.
Qed.
Lemma callback_error_refuted_ : ~ callback_error_statement.
Proof.
  intro H. specialize (H linux linux_options [cfg (feature "b")] (S_ "E") linux_agrees eq_refl).
  vm_compute in H. discriminate.
Qed.
Lemma module_docs_refuted_ : ~ module_docs_statement.
Proof.
  intro H.
  specialize (H linux linux_options [cfg_attr (feature "a") [MVal (S_ "doc") (Vstr (S_ "text"))]] (S_ "m")
    linux_agrees eq_refl).
  vm_compute in H. discriminate.
Qed.
Lemma uses_refuted_ : ~ uses_statement.
Proof.
  intro H. specialize (H linux linux_options [cfg (feature "b")] (S_ "X") linux_agrees eq_refl).
  vm_compute in H. discriminate.
Qed.
Lemma aliases_refuted_ : ~ aliases_statement.
Proof.
  intro H. specialize (H linux linux_options [cfg (feature "b")] (S_ "X") linux_agrees eq_refl).
  vm_compute in H. discriminate.
Qed.
Lemma absent_types_refuted_ : ~ absent_types_statement.
Proof.
  intro H. specialize (H linux linux_options [cfg (feature "b")] (S_ "X") [] linux_agrees eq_refl eq_refl).
  vm_compute in H. discriminate.
Qed.
