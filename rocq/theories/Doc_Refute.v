(** Documentation that does not arrive as written. *)
From Verif Require Import Base Meta_Types Lit_Spec Lit_Text_Proofs Doc_Spec Doc_Model Doc_Proofs Doc_Python_Proofs.

(** [splits \xml] cannot be the text of a Python string. *)
Definition bad_escape : bytes := S_ "splits \xml".
Lemma python_error : Forall line [bad_escape] /\
  exists body, py_doc 4 (Some (join [bad_escape])) = quotes ++ body /\ long_string body = None.
Proof.
  split.
  - repeat constructor; vm_compute; intuition discriminate.
  - eexists. split; [vm_compute; reflexivity|]. vm_compute. reflexivity.
Qed.
(** [ends with \n] gets a line end. *)
Definition new_line : bytes := S_ "ends with \n".
Lemma python_other : Forall line [new_line] /\
  exists body v rest, py_doc 0 (Some (join [new_line])) = quotes ++ body /\
    long_string body = Some (v, rest) /\ v = LF :: S_ "ends with " ++ [LF; LF].
Proof.
  split.
  - repeat constructor; vm_compute; intuition discriminate.
  - eexists _, _, _. split; [vm_compute; reflexivity|]. split; [vm_compute; reflexivity|]. reflexivity.
Qed.
(** A list inside a list, in Rust. *)
Definition nested : list bytes := [S_ "- a"; S_ "  - b"].
Lemma rust_indentation : Forall line nested /\
  extract_docstring (map (cons x20) nested) = join [S_ "- a"; S_ "- b"] /\
  ~ dedented nested [S_ "- a"; S_ "- b"].
Proof.
  split; [repeat constructor; vm_compute; intuition discriminate|].
  split; [vm_compute; reflexivity|]. intros (p & B & F). inversion F; subst. inversion H4; subst.
  vm_compute in H2. destruct p as [|c p]; [|injection H2 as <- H2; discriminate B].
  vm_compute in H3. discriminate H3.
Qed.
(** White space at the end of a line goes too (in Markdown two blanks there break the line). *)
Lemma rust_trailing : extract_docstring [S_ " one  "; S_ " two"] = join [S_ "one"; S_ "two"].
Proof. reflexivity. Qed.
