(** Documentation as the generators write it. *)
From Verif Require Import Base Meta_Types Lit_Spec Lit_Text_Proofs Doc_Spec Doc_Model Doc_Proofs Doc_Python_Proofs.

Definition sample : list bytes :=
  [S_ " Divides /* or */ not."; []; S_ " ```"; S_ "   div(a, b)"; S_ " ```"].
Definition sample' : list bytes :=
  [S_ "Divides /* or */ not."; []; S_ "```"; S_ "  div(a, b)"; S_ "```"].
Example sample_lines : sample <> [] /\ Forall line sample /\ dedented sample sample'.
Proof.
  split; [discriminate|]. split.
  - repeat constructor; vm_compute; intuition discriminate.
  - exists [x20]. split; [reflexivity|]. repeat constructor.
Qed.
Example sample_kotlin : kt_doc 2 (join sample) =
  join [S_ "  /**"; S_ "   * Divides /\* or *\/ not."; S_ "   *"; S_ "   * ```";
        S_ "   *   div(a, b)"; S_ "   * ```"; S_ "   */"] /\
  comment_lines (kt_doc 2 (join sample)) = map guarded sample'.
Proof. split; vm_compute; reflexivity. Qed.
(** Without the backslashes the comment would close early. *)
Example sample_open : after_comment (S_ "/** a */ b */ c") = Some (S_ " b */ c") /\
  after_comment (S_ "/** a /* b */ c") = None.
Proof. split; vm_compute; reflexivity. Qed.
Definition quoted : list bytes := [S_ "Say """"""hi"""""", or"; S_ "  not\"].
Example sample_python : Forall line quoted /\
  after_string (LF :: S_ "    Say \""\""\""hi\""\""\"", or" ++ LF :: S_ "      not\" ++ LF :: quotes ++ S_ " rest")
    = Some (S_ " rest") /\
  py_doc 4 (Some (join quoted)) =
    quotes ++ LF :: S_ "    Say \""\""\""hi\""\""\"", or" ++ LF :: S_ "      not\" ++ LF :: quotes ++ LF :: S_ "    ".
Proof.
  split; [repeat constructor; vm_compute; intuition discriminate|]. split; vm_compute; reflexivity.
Qed.
Example sample_python_plain :
  Forall (Forall (fun c => c <> x5c /\ c <> x00)) sample.
Proof. repeat constructor; discriminate. Qed.
(** A piece of UDL. *)
Example sample_udl :
  Forall (fun wl => forallb udl_ws (fst wl) = true /\ no_lf (snd wl))
    [(S_ "  ", S_ " One."); (LF :: S_ "  ", S_ "  Two.")] /\
  no_doc_next (S_ "  u32 f();") /\
  weedle_docstring (S_ "  /// One." ++ LF :: LF :: S_ "  ///  Two." ++ LF :: S_ "  u32 f();") =
    Some (join [S_ " One."; S_ "  Two."], S_ "  u32 f();") /\
  convert_docstring (join [S_ " One."; S_ "  Two."]) = join [S_ "One."; S_ " Two."].
Proof.
  split; [repeat constructor; vm_compute; intuition discriminate|].
  split; [exists (S_ "  "), (S_ "u32 f();"); repeat split|]. split; vm_compute; reflexivity.
Qed.
Example sample_rust : Forall tight [S_ "One."; []; S_ "Two words."] /\
  extract_docstring [S_ " One."; S_ " "; S_ " Two words."] = join [S_ "One."; []; S_ "Two words."].
Proof. split; [repeat constructor|vm_compute; reflexivity]. Qed.
