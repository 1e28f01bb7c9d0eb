(** The hypotheses of the theorems on paths can be met. *)
From Verif Require Import Base Meta_Types Path_Types Path_Spec Path_Model Path_Claims Path_Decide Path_Refute.

(** Crate [k], with a UDL file that has [Conf]; crate [dep] is as in [Path_Refute]:
<<
    mod inner { #[derive(uniffi::Record)] pub struct R {}  pub use crate::deep::*; }
    mod deep  { #[derive(uniffi::Record)] pub struct D {}  pub struct R2; pub struct R2; }
    pub use inner::*;
    use dep::bar::X as Thing;
>> *)
Definition inner := it_ 1 "inner" Private (KModule 1).
Definition deep := it_ 2 "deep" Private (KModule 2).
Definition rec_r := it_ 3 "R" Public (KRecord false).
Definition rec_d := it_ 4 "D" Public (KRecord false).
Definition conf := it_ 5 "Conf" Public KUdl.
Definition dup1 := it_ 6 "R2" Public (KRecord false).
Definition dup2 := it_ 7 "R2" Public (KRecord false).
Definition sources : ir :=
  Ir [(0, [inner; deep; it_ 8 "" Public (KGlob (p_ ["inner"]%string));
           it_ 9 "Thing" Private (KUse (p_ ["dep"; "bar"; "X"]%string)); conf]);
      (1, [rec_r; it_ 13 "" Public (KGlob (p_ ["crate"; "deep"]%string))]); (2, [rec_d; dup1; dup2]);
      (10, [mod_bar]); (11, [rec_x])]%nat
     [(S_ "k", root0); (S_ "dep", root1)].
Example sources_tree : tree sources.
Proof. apply tree_ok. reflexivity. Qed.
Example sources_place : place sources [deep; root0] /\ place sources [root0].
Proof. split; [apply place0; cbn; auto | apply place_k; now left]. Qed.
Definition asked : list query :=
  [q_ [root0] ["R"]%string NsType; q_ [inner; root0] ["super"; "Thing"]%string NsType; q_ [deep; root0] ["R2"]%string NsType;
   q_ [root0] ["D"]%string NsType; q_ [root0] ["Conf"]%string NsType; q_ [inner; root0] ["Conf"]%string NsType;
   q_ [root0] ["std"; "sync"; "Arc"]%string NsType; q_ [root0] ["Nope"]%string NsType; q_ [root0] ["k"; "inner"; "D"]%string NsType].
Example asked_places : from_places sources asked.
Proof.
  intros self p n I. unfold asked, q_ in I.
  repeat (destruct I as [I | I]; [injection I as <- <- <-; (apply place0 || apply place_k); cbn; auto|]). destruct I.
Qed.
Example asked_answers :
  match session sources (depth_bound sources asked) asked fresh with
  | Some (os, _) => os = [Found [rec_r; inner; root0]; Found [rec_x; mod_bar; root1]; Fail Conflict;
                          Found [rec_d; deep; root0]; Found [conf; root0]; Found [conf; root0];
                          Found [std (StdType (S_ "Arc"))]; Fail NotFound; Found [rec_d; deep; root0]]
  | None => False
  end.
Proof. vm_compute. reflexivity. Qed.

Lemma one_item_one q : q <> [] -> (forall i s, q = i :: s -> is_item i i = true) -> one_item [q].
Proof. intros N E a b [<- | []] [<- | []]. destruct q as [| i s]; [congruence|]. exists i, i, s, s. eauto. Qed.
(** Through a glob. *)
Example refers_r : refers sources [root0] (p_ ["R"]%string) NsType (Some [rec_r; inner; root0]).
Proof.
  eapply refers_here; [reflexivity | reflexivity | | apply goes_end].
  eapply (m_star _ _ 0%nat _ _ _ []); try reflexivity; [apply used_nil | |].
  - apply (starred_one _ _ _ _ (p_ ["inner"]%string) []); [|apply starred_nil].
    eapply refers_here; [reflexivity | reflexivity | |].
    + eapply (m_declared _ _ 0%nat); try reflexivity. apply used_nil.
    + eapply goes_on; [|apply goes_end]. eapply (m_declared _ _ 1%nat); try reflexivity. apply used_nil.
  - apply one_item_one; [discriminate|]. now intros i s [= <- <-].
Qed.
(** Through a [use] of another crate's item. *)
Example refers_thing : refers sources [inner; root0] (p_ ["super"; "Thing"]%string) NsType (Some [rec_x; mod_bar; root1]).
Proof.
  eapply refers_here; [reflexivity | reflexivity | apply m_super; [reflexivity | discriminate]|].
  eapply goes_on; [|apply goes_end].
  eapply (m_used _ _ 0%nat _ _ _ []); try reflexivity.
  - apply (used_one _ _ _ (p_ ["dep"; "bar"; "X"]%string) []); [|reflexivity | apply used_nil].
    eapply refers_out; [reflexivity | reflexivity | |].
    + eapply (m_nothing _ _ 0%nat); try reflexivity; [apply used_nil|].
      apply (starred_none _ _ _ _ (p_ ["inner"]%string) []); [|apply starred_nil].
      eapply refers_here; [reflexivity | reflexivity | |].
      * eapply (m_declared _ _ 0%nat); try reflexivity. apply used_nil.
      * apply goes_not. eapply (m_nothing _ _ 1%nat); try reflexivity; [apply used_nil|].
        apply (starred_none _ _ _ _ (p_ ["crate"; "deep"]%string) []); [|apply starred_nil].
        eapply refers_here; [reflexivity | reflexivity | apply m_crate; reflexivity|].
        eapply goes_on.
        -- eapply (m_declared _ _ 0%nat); try reflexivity. apply used_nil.
        -- apply goes_not. eapply (m_nothing _ _ 2%nat); try reflexivity; [apply used_nil | apply starred_nil].
    + eapply (out_crate _ _ _ _ (S_ "dep") _ root1); try reflexivity.
      eapply goes_on; [eapply (m_declared _ _ 10%nat); try reflexivity; apply used_nil|].
      eapply goes_on; [eapply (m_declared _ _ 11%nat); try reflexivity; apply used_nil|]. apply goes_end.
  - apply one_item_one; [discriminate|]. now intros i s [= <- <-].
Qed.
(** Twice declared. *)
Example declared_twice : described sources 2 (S_ "R2") NsType = [] /\ declared sources 2 (S_ "R2") NsType = [dup1; dup2].
Proof. split; reflexivity. Qed.
(** A private item makes a conflict with a public one: [mod a { struct Y } mod c { pub struct Y } use a::*; use c::*;]. *)
Definition priv_y := it_ 60 "Y" Private (KRecord false).
Definition clash : ir :=
  Ir [(0, [mod_a; mod_c; it_ 61 "" Private (KGlob (p_ ["a"]%string)); it_ 62 "" Private (KGlob (p_ ["c"]%string))]);
      (1, [priv_y]); (3, [rec_y])]%nat [(S_ "k", root0)].
Example private_conflict :
  match lookup clash 20 [root0] (p_ ["Y"]%string) NsType fresh with Some (o, _) => o = Fail Conflict | None => False end.
Proof. vm_compute. reflexivity. Qed.
(** The macro of this library imported beside a module of its name. *)
Example macro_conflict :
  match lookup shadow 20 [root0] (p_ ["export"]%string) NsMacro fresh with Some (o, _) => o = Fail Conflict | None => False end.
Proof. vm_compute. reflexivity. Qed.
