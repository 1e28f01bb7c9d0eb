(** C31 and C32 for items defined in UDL.  [hash] is the hash function, whatever it is. *)
From Verif Require Import Base Meta_Types Names_Model Csum_Model Csum_Spec Csum_Proofs.
Open Scope Z_scope.

(** C31: the checksum the scaffolding returns equals the one the bindings expect, even after the
    bindings renamed everything. *)
Theorem C31_udl_checksums_agree hash k f on_name on_ty :
  u_stored f = None ->
  ci_checksum hash k (rename_ufn on_name on_ty (load_udl hash k f)) = udl_scaffolding hash k f.
Proof. exact (udl_agree hash k f on_name on_ty). Qed.
Print Assumptions C31_udl_checksums_agree.

(** C31: editing a docstring does not change it. *)
Theorem C31_udl_docstring hash k f doc : ci_checksum hash k (set_udoc doc f) = ci_checksum hash k f.
Proof. exact (udl_docs hash k f doc). Qed.
Print Assumptions C31_udl_docstring.

(** C32: items of one kind with different signatures feed different bytes to the hash, and neither is
    the beginning of the other. *)
Theorem C32_udl_different_signatures k f g r s :
  ufn_fits f -> ufn_fits g -> ~ same_signature k f g -> stream k f ++ r <> stream k g ++ s.
Proof. exact (fun F G N E => N (streams_distinct k f g r s F G E)). Qed.
Print Assumptions C32_udl_different_signatures.
