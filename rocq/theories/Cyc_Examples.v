(** Concrete definitions for C34. *)
From Coq Require Import Permutation Relation_Operators.
From Verif Require Import Base Meta_Types Cyc_Model Cyc_Spec.

Definition fld (n : string) (t : ty) : field := Field (S_ n) None t None None.
Definition rcd (m n : string) (fs : list field) : type_def :=
  DRecord (Rec (S_ m) (S_ n) None fs None).
Definition enm (m n : string) (fs : list field) : type_def :=
  DEnum (Enum (S_ m) (S_ n) None ShEnum None
           [Variant (S_ "Leaf") None None [] None; Variant (S_ "Node") None None fs None]
           false None).
Definition R (n : string) : ty := TRecord (S_ "m") (S_ n).
Definition En (n : string) : ty := TEnum (S_ "m") (S_ n).

(** A tree and an unrelated record that uses it. *)
Definition tree : list type_def :=
  [ enm "m" "Tree" [fld "left" (TBox (En "Tree")); fld "right" (TOption (TBox (En "Tree")))];
    rcd "m" "Forest" [fld "trees" (TSeq (En "Tree")); fld "count" TU32]; DOther (S_ "Iface") ].

Example tree_ok : defined_once tree /\ unambiguous tree.
Proof.
  split.
  - unfold defined_once. vm_compute. repeat constructor; cbn; intuition discriminate.
  - assert (H : forall m n, appears tree (m, n) -> m = S_ "m").
    { intros m n [d [D [A|A]]]; repeat (destruct D as [<-|D]); try destruct D; cbn in A;
        try (injection A as -> _; reflexivity); try contradiction.
      - destruct A as [v [f [V [F H]]]]. destruct V as [<-|[<-|[]]]; cbn in F; [contradiction|].
        destruct F as [<-|[<-|[]]]; cbn in H;
          repeat match goal with H : holds _ _ |- _ => inversion H; subst; clear H end; reflexivity.
      - destruct A as [f [F H]]. destruct F as [<-|[<-|[]]]; cbn in H;
          repeat match goal with H : holds _ _ |- _ => inversion H; subst; clear H end; reflexivity. }
    intros m m' n A B. rewrite (H _ _ A), (H _ _ B). reflexivity.
Qed.

(** The entries in the order of definition, or reversed; duplicates in the sets dropped. *)
Definition tree_order : graph := [(S_ "Forest", [S_ "Tree"]); (S_ "Tree", [S_ "Tree"])].

Example tree_traversal : traversal tree tree_order.
Proof.
  exists [(S_ "Forest", [S_ "Tree"]); (S_ "Tree", [S_ "Tree"; S_ "Tree"])]. split.
  - apply perm_swap.
  - constructor; [|constructor; [|constructor]]; (split; [reflexivity|]); cbn;
      (split; [repeat constructor; cbn; tauto | tauto]).
Qed.

Example tree_marked :
  exists rc, find_recursive tree_order = Ok rc /\ map (marked rc) tree = [true; false; false].
Proof. eexists. split; vm_compute; reflexivity. Qed.

(** Only one way for the tree to contain itself. *)
Example tree_one_way a b c : contains tree a b -> contains tree a c ->
  clos_trans _ (contains tree) b a -> clos_trans _ (contains tree) c a -> b = c.
Proof.
  assert (H : forall x y, contains tree x y -> y = (S_ "m", S_ "Tree")).
  { intros x y [d [D [_ A]]]; repeat (destruct D as [<-|D]); try destruct D; cbn in A;
      try contradiction.
    - destruct A as [v [f [V [F H]]]]. destruct V as [<-|[<-|[]]]; cbn in F; [contradiction|].
      destruct F as [<-|[<-|[]]]; cbn in H;
        repeat match goal with H : holds _ _ |- _ => inversion H; subst; clear H end; reflexivity.
    - destruct A as [f [F H]]. destruct F as [<-|[<-|[]]]; cbn in H;
        repeat match goal with H : holds _ _ |- _ => inversion H; subst; clear H end; reflexivity. }
  intros A B _ _. rewrite (H _ _ A), (H _ _ B). reflexivity.
Qed.

Example tree_cycle : chain tree (S_ "m", S_ "Tree") [] (S_ "m", S_ "Tree").
Proof.
  exists (nth 0 tree (DOther [])). split; [left; reflexivity|]. split; [reflexivity|].
  eexists. eexists. split; [right; left; reflexivity|]. split; [left; reflexivity|].
  repeat constructor.
Qed.

(** Two cycles that share definitions: [A] holds [B]s in a sequence and a [C]; [B] holds an [A]; [C],
    an enum, holds a [B].  In Swift [C] has to be declared [indirect]. *)
Definition knot : list type_def :=
  [ rcd "m" "A" [fld "bs" (TSeq (R "B")); fld "c" (En "C")];
    rcd "m" "B" [fld "a" (R "A")];
    enm "m" "C" [fld "b" (TBox (R "B"))] ].

Definition knot_order (first : bool) : graph :=
  let da := if first then [S_ "B"; S_ "C"] else [S_ "C"; S_ "B"] in
  [(S_ "A", da); (S_ "B", [S_ "A"]); (S_ "C", [S_ "B"])].

Example knot_traversal first : traversal knot (knot_order first).
Proof.
  exists (dep_entries knot). split; [reflexivity|].
  destruct first; (constructor; [|constructor; [|constructor; [|constructor]]]);
    (split; [reflexivity|]); cbn;
    (split; [repeat constructor; cbn; intuition discriminate | tauto]).
Qed.

Definition C_id : tid := (S_ "m", S_ "C").

Example knot_C : contains_itself knot C_id.
Proof.
  assert (c1 : contains knot (S_ "m", S_ "C") (S_ "m", S_ "B")).
  { exists (nth 2 knot (DOther [])). split; [right; right; left; reflexivity|]. split; [reflexivity|].
    eexists. eexists. split; [right; left; reflexivity|]. split; [left; reflexivity|].
    repeat constructor. }
  assert (c2 : contains knot (S_ "m", S_ "B") (S_ "m", S_ "A")).
  { exists (nth 1 knot (DOther [])). split; [right; left; reflexivity|]. split; [reflexivity|].
    eexists. split; [left; reflexivity|]. repeat constructor. }
  assert (c3 : contains knot (S_ "m", S_ "A") (S_ "m", S_ "C")).
  { exists (nth 0 knot (DOther [])). split; [left; reflexivity|]. split; [reflexivity|].
    eexists. split; [right; left; reflexivity|]. repeat constructor. }
  eapply t_trans; [apply t_step; exact c1|].
  eapply t_trans; apply t_step; eassumption.
Qed.

Example knot_ok : defined_once knot /\ unambiguous knot.
Proof.
  split.
  - unfold defined_once. vm_compute. repeat constructor; cbn; intuition discriminate.
  - assert (H : forall m n, appears knot (m, n) -> m = S_ "m").
    { intros m n [d [D [A|A]]]; repeat (destruct D as [<-|D]); try destruct D; cbn in A;
        try (injection A as -> _; reflexivity); try contradiction.
      - destruct A as [f [F H]]. destruct F as [<-|[<-|[]]]; cbn in H;
          repeat match goal with H : holds _ _ |- _ => inversion H; subst; clear H end; reflexivity.
      - destruct A as [f [F H]]. destruct F as [<-|[]]; cbn in H;
          repeat match goal with H : holds _ _ |- _ => inversion H; subst; clear H end; reflexivity.
      - destruct A as [v [f [V [F H]]]]. destruct V as [<-|[<-|[]]]; cbn in F; [contradiction|].
        destruct F as [<-|[]]; cbn in H;
          repeat match goal with H : holds _ _ |- _ => inversion H; subst; clear H end; reflexivity. }
    intros m m' n A B. rewrite (H _ _ A), (H _ _ B). reflexivity.
Qed.

Example knot_missed :
  exists rc, find_recursive (knot_order true) = Ok rc /\ map (marked rc) knot = [true; true; false].
Proof. eexists. split; vm_compute; reflexivity. Qed.
Example knot_found :
  exists rc, find_recursive (knot_order false) = Ok rc /\ map (marked rc) knot = [true; true; true].
Proof. eexists. split; vm_compute; reflexivity. Qed.

(** A record with a field of a record of another crate that has the same name. *)
Definition namesake : list type_def :=
  [ rcd "mine" "Config" [fld "inner" (TRecord (S_ "theirs") (S_ "Config"))] ].

Example namesake_traversal : traversal namesake [(S_ "Config", [S_ "Config"])].
Proof.
  exists (dep_entries namesake). split; [reflexivity|]. constructor; [|constructor].
  split; [reflexivity|]. cbn. split; [repeat constructor; cbn; tauto | tauto].
Qed.

Example namesake_not : ~ contains_itself namesake (S_ "mine", S_ "Config").
Proof.
  assert (H : forall x y, contains namesake x y -> y = (S_ "theirs", S_ "Config")).
  { intros x y [d [[<-|[]] [_ A]]]. cbn in A. destruct A as [f [[<-|[]] A]]. cbn in A.
    inversion A; subst. reflexivity. }
  intros C. unfold contains_itself in C.
  assert (K : forall x y, clos_trans _ (contains namesake) x y -> y = (S_ "theirs", S_ "Config")).
  { intros x y Q. induction Q; [eapply H; eassumption | assumption]. }
  apply K in C. discriminate C.
Qed.

Example namesake_marked :
  exists rc, find_recursive [(S_ "Config", [S_ "Config"])] = Ok rc /\
             map (marked rc) namesake = [true].
Proof. eexists. split; vm_compute; reflexivity. Qed.

Lemma knot_missed_refuted :
  exists defs g rc d i, defined_once defs /\ unambiguous defs /\ traversal defs g /\
    find_recursive g = Ok rc /\ In d defs /\ defines d i /\ contains_itself defs i /\
    marked rc d = false.
Proof.
  destruct knot_missed as [rc [F M]].
  exists knot, (knot_order true), rc, (nth 2 knot (DOther [])), C_id.
  refine (conj (proj1 knot_ok) (conj (proj2 knot_ok) (conj (knot_traversal true) (conj F _)))).
  refine (conj (or_intror (or_intror (or_introl eq_refl))) (conj eq_refl (conj knot_C _))).
  exact (f_equal (fun l => nth 2 l true) M).
Qed.

Lemma knot_order_refuted :
  exists defs g g' rc rc' d, traversal defs g /\ traversal defs g' /\
    find_recursive g = Ok rc /\ find_recursive g' = Ok rc' /\ In d defs /\
    marked rc d = false /\ marked rc' d = true.
Proof.
  destruct knot_missed as [rc [F M]], knot_found as [rc' [F' M']].
  exists knot, (knot_order true), (knot_order false), rc, rc', (nth 2 knot (DOther [])).
  refine (conj (knot_traversal true) (conj (knot_traversal false) (conj F (conj F' _)))).
  refine (conj (or_intror (or_intror (or_introl eq_refl))) _).
  exact (conj (f_equal (fun l => nth 2 l true) M) (f_equal (fun l => nth 2 l true) M')).
Qed.

Lemma namesake_refuted :
  exists defs g rc d i, defined_once defs /\ traversal defs g /\ find_recursive g = Ok rc /\
    In d defs /\ defines d i /\ ~ contains_itself defs i /\ marked rc d = true.
Proof.
  destruct namesake_marked as [rc [F M]].
  exists namesake, [(S_ "Config", [S_ "Config"])], rc, (nth 0 namesake (DOther [])),
    (S_ "mine", S_ "Config").
  assert (DO : defined_once namesake) by (repeat constructor; intros []).
  refine (conj DO (conj namesake_traversal (conj F _))).
  refine (conj (or_introl eq_refl) (conj eq_refl (conj namesake_not _))).
  exact (f_equal (fun l => nth 0 l true) M).
Qed.
