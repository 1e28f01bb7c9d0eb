(** A UDL method that meets the hypotheses, and one that differs from it in a default only. *)
From Verif Require Import Base Utf8 Meta_Types Meta_Spec Names_Model Csum_Model Csum_Spec.
Open Scope Z_scope.

Definition ex_arg (z : Z) : uarg :=
  UArg (Param (S_ "limit") (TOption TI32) ByValue
          (Some (DLit (LSome (DLit (LInt z Decimal_ TI32)))))) true.
Definition ex_udl (z : Z) (doc : option str) : ufn :=
  UFn (S_ "search") (S_ "app") (S_ "Index") false
    [UArg (Param (S_ "query") TString ByRef None) false; ex_arg z]
    (Some (TSeq (TRecord (S_ "app") (S_ "Hit")))) (Some (TEnum (S_ "app") (S_ "SearchError"))) false
    doc None.
Example ex_udl_fits z : - 2 ^ 31 <= z < 2 ^ 31 -> ufn_fits (ex_udl z None).
Proof.
  intros Z. unfold ufn_fits, ex_udl. cbn. repeat split; auto; try lia.
  repeat (apply Forall_cons || apply Forall_nil); unfold arg_fits; cbn; repeat split; auto; lia.
Qed.
Example ex_udl_differs : stream UMethod (ex_udl 5 None) <> stream UMethod (ex_udl (-5) None).
Proof. vm_compute. discriminate. Qed.
Example ex_udl_doc :
  stream UMethod (ex_udl 5 None) = stream UMethod (ex_udl 5 (Some (S_ "Searches."))).
Proof. reflexivity. Qed.
Example ex_udl_length : length (stream UMethod (ex_udl 5 None)) = 247%nat.
Proof. vm_compute. reflexivity. Qed.
