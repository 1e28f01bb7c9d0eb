(** Cases that meet the hypotheses of the theorems on [use] declarations (C58). *)
From Verif Require Import Base Meta_Types Path_Types Use_Spec Use_Model Use_Claims.

(** [pub use a::{self, b::{c, d as e}, f::*};] *)
Definition tree1 : tree :=
  TPath (S_ "a") (TGroup [TName (S_ "self"); TPath (S_ "b") (TGroup [TName (S_ "c"); TRename (S_ "d") (S_ "e")]);
                          TPath (S_ "f") TStar]).
Example tree1_brings :
  proper true tree1 = true /\ renames_self tree1 = false /\
  parse_use Public true tree1 = Some
    [ MUse Public (Path true [S_ "a"]) (S_ "a"); MUse Public (Path true [S_ "a"; S_ "b"; S_ "c"]) (S_ "c");
      MUse Public (Path true [S_ "a"; S_ "b"; S_ "d"]) (S_ "e"); MGlob Public (Path true [S_ "a"; S_ "f"]) ].
Proof. vm_compute. auto. Qed.
Example self_refused : parse_use Public false (TGroup [TName (S_ "self")]) = None.
Proof. reflexivity. Qed.
