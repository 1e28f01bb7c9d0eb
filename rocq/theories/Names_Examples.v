(** Concrete cases for the theorems on names, and their last steps. *)
From Verif Require Import Base Meta_Types Meta_Model Meta_Spec Meta_Proofs2 Meta_Examples Names_Model
  Names_Spec Names_Proofs.
Open Scope Z_scope.

Definition ex_meth : entity := Entity KMethod (S_ "my_crate::api") (S_ "TodoList") (S_ "add_item").
Definition ex_func : entity := Entity KFunc (S_ "my_crate") [] (S_ "todolist_add_item").
Example ex_symbol : symbol ex_meth = S_ "uniffi_my_crate_fn_method_todolist_add_item".
Proof. reflexivity. Qed.

Lemma not_occurs p s : forallb (fun i => negb (bytes_eqb (firstn (length p) (skipn i s)) p)) (seq 0 (S (length s))) = true -> ~ occurs p s.
Proof.
  intros H (a & b & ->). rewrite forallb_forall in H.
  specialize (H (length a)). rewrite in_seq, app_length in H. specialize (H ltac:(lia)).
  rewrite skipn_app, skipn_all, Nat.sub_diag in H. cbn [app skipn] in H.
  rewrite firstn_app, firstn_all, Nat.sub_diag in H. cbn [firstn] in H. rewrite app_nil_r in H.
  destruct (bytes_eqb_spec p p); [discriminate|congruence].
Qed.
Example ex_disciplined : disciplined ex_meth /\ disciplined ex_func /\ well_formed ex_meth /\ well_formed ex_func.
Proof.
  unfold disciplined. repeat split; try (apply not_occurs; vm_compute; reflexivity);
    cbn; intuition discriminate.
Qed.

(** Distinct methods with the same symbol. *)
Definition ex_a : entity := Entity KMethod (S_ "c") (S_ "A") (S_ "b_c").
Definition ex_b : entity := Entity KMethod (S_ "c") (S_ "A_b") (S_ "c").
Lemma underscore_collision :
  exists e e', well_formed e /\ well_formed e' /\ symbol e = symbol e' /\ ~ same_up_to_case e e'.
Proof.
  exists ex_a, ex_b. split; [exact I|]. split; [exact I|]. split; [reflexivity|].
  intros (_ & _ & H & _). discriminate.
Qed.
(** Distinct functions of different modules of one crate, and functions that differ in case. *)
Lemma module_collision :
  exists e e', well_formed e /\ well_formed e' /\ disciplined e /\ disciplined e' /\
    en_mp e <> en_mp e' /\ symbol e = symbol e'.
Proof.
  exists (Entity KFunc (S_ "c::one") [] (S_ "f")), (Entity KFunc (S_ "c::two") [] (S_ "f")).
  unfold disciplined. repeat split; try (apply not_occurs; vm_compute; reflexivity);
    cbn; try (intuition discriminate); discriminate.
Qed.
Lemma case_collision :
  exists e e', well_formed e /\ well_formed e' /\ disciplined e /\ disciplined e' /\
    en_mp e = en_mp e' /\ en_name e <> en_name e' /\ symbol e = symbol e'.
Proof.
  exists (Entity KFunc (S_ "c") [] (S_ "f")), (Entity KFunc (S_ "c") [] (S_ "F")).
  unfold disciplined. repeat split; try (apply not_occurs; vm_compute; reflexivity);
    cbn; try (intuition discriminate); discriminate.
Qed.
(** Two crates of one library. *)
Lemma crate_collision :
  exists e e', well_formed e /\ well_formed e' /\ en_type e = [] /\ en_type e' = [] /\
    crate_name (en_mp e) <> crate_name (en_mp e') /\ symbol e = symbol e'.
Proof.
  exists (Entity KFunc (S_ "a") [] (S_ "b_fn_func_c")), (Entity KFunc (S_ "a_fn_func_b") [] (S_ "c")).
  repeat split; discriminate.
Qed.

Lemma ci_calls_exported d omp m b rest :
  recordable d m -> utf8 omp -> write omp m = Some b ->
  exists m', read d (b ++ rest) = Ok (m', rest) /\
    forall c news, ci_callable m' = Some c ->
      called (fold_right ci_rename c news) = scaffolding_symbols m.
Proof.
  intros R U W. destruct (write_read d omp m b rest R U W) as (m' & E & N & _).
  exists m'. split; auto. intros c news C. rewrite callable_renames. eapply ci_same; eauto.
Qed.
Lemma pipeline_calls_exported d omp m b rest :
  recordable d m -> utf8 omp -> write omp m = Some b ->
  exists m', read d (b ++ rest) = Ok (m', rest) /\
    (forall table c, pipeline_callable (crate_name (item_mp m)) table m' = Some c ->
       called c = scaffolding_symbols m) /\
    (type_item m -> pipeline_type_symbols (crate_name (item_mp m)) m' = scaffolding_symbols m).
Proof.
  intros R U W. destruct (write_read d omp m b rest R U W) as (m' & E & N & _).
  exists m'. split; auto. split; [|apply pipeline_types_same; auto].
  intros table c C. eapply pipeline_same; eauto.
Qed.
Example ex_ctor_symbols :
  scaffolding_symbols (MConstructor (S_ "Todo") (Fn (S_ "app") (S_ "new") None false [] None None None None))
  = [S_ "uniffi_app_fn_constructor_todo_new"; S_ "uniffi_app_checksum_constructor_todo_new"].
Proof. reflexivity. Qed.
Example ex_renamed :
  match pipeline_callable (S_ "my_crate") (fun k => if bytes_eqb k (S_ "T.f") then Some (S_ "g") else None)
          (MMethod (S_ "T") (Fn (S_ "my_crate") (S_ "f") None false [] None None None None)) with
  | Some c => c_name c = S_ "g" /\ c_ffi c = S_ "uniffi_my_crate_fn_method_t_f"
  | None => False
  end.
Proof. split; reflexivity. Qed.
