(** Concrete cases for C40. *)
From Verif Require Import Base Meta_Types Meta_Eq Group_Model Group_Spec Group_Proofs.
From Coq Require Import Permutation.
Local Open Scope string_scope.

Definition fn_in (mp name : string) : metadata :=
  MFunc (Fn (S_ mp) (S_ name) None false [] None None (Some 7%Z) None).
Definition rec_in (mp name : string) : metadata := MRecord (Rec (S_ mp) (S_ name) None [] None).

(** Two crates, one with a UDL file, items found in no particular order. *)
Definition found : list metadata :=
  [fn_in "a" "f"; MNamespace (S_ "a") (S_ "alpha"); rec_in "b::sub" "R"; fn_in "b" "f";
   MUdlFile (S_ "b") (S_ "beta") (S_ "b"); MNamespace (S_ "b") (S_ "beta"); rec_in "a" "R"].

Example found_grouped : group_library found =
  Ok [(S_ "a", Group (S_ "a") (S_ "alpha") [fn_in "a" "f"; rec_in "a" "R"]);
      (S_ "b", Group (S_ "b") (S_ "beta")
                 [rec_in "b::sub" "R"; fn_in "b" "f"; MUdlFile (S_ "b") (S_ "beta") (S_ "b")])].
Proof. vm_compute. reflexivity. Qed.

Lemma found_one_namespace : one_namespace found.
Proof.
  intros a b c n n' Ia Ib Da Db. cbn [found In] in Ia, Ib.
  repeat (destruct Ia as [<-|Ia]; [try contradiction Da|]); try contradiction Ia;
  repeat (destruct Ib as [<-|Ib]; [try contradiction Db|]); try contradiction Ib;
  cbn in Da, Db; destruct Da as [<- <-]; destruct Db as [Q <-];
  first [reflexivity | discriminate Q].
Qed.

Example unknown_crate : group_library [MNamespace (S_ "a") (S_ "a"); fn_in "b" "f"] = Err.
Proof. vm_compute. reflexivity. Qed.

Example duplicate : group_library [MNamespace (S_ "a") (S_ "a"); fn_in "a" "f"; fn_in "a" "f"] = Err.
Proof. vm_compute. reflexivity. Qed.

(** A crate that declares two namespaces. *)
Definition twice : list metadata :=
  [MNamespace (S_ "a") (S_ "one"); MNamespace (S_ "a") (S_ "two"); fn_in "a" "f"].
Definition twice' : list metadata :=
  [MNamespace (S_ "a") (S_ "two"); MNamespace (S_ "a") (S_ "one"); fn_in "a" "f"].

Lemma twice_order : exists items items' gs gs',
  Permutation items items' /\ group_library items = Ok gs /\ group_library items' = Ok gs' /\
  ~ same_groups gs gs'.
Proof.
  exists twice, twice'.
  exists [(S_ "a", Group (S_ "a") (S_ "two") [fn_in "a" "f"])].
  exists [(S_ "a", Group (S_ "a") (S_ "one") [fn_in "a" "f"])].
  split; [apply perm_swap|]. split; [vm_compute; reflexivity|]. split; [vm_compute; reflexivity|].
  intros H. specialize (H (S_ "a")). cbn in H. destruct H as [_ [H _]]. discriminate H.
Qed.
