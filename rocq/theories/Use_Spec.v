(** [use] declarations and the names they bring, after the Rust reference.
    The tree is the parser library's (syn::UseTree). Simplification: identifiers are without [r#]. *)
From Verif Require Import Base Meta_Types Path_Types.

Inductive tree :=
| TPath (x : str) (t : tree)                 (* x::t *)
| TName (x : str)                            (* x, or self *)
| TRename (x y : str)                        (* x as y, or self as y *)
| TStar                                      (* * *)
| TGroup (l : list tree).                    (* {a, b} *)

Definition is_self (x : str) : bool := bytes_eqb x (S_ "self").
Inductive bound := Named (p : list str) (x : str) | Starred (p : list str).

(** What a tree brings after the names [before] it. [self] stands for the module itself, under its own
    name or a new one. *)
Inductive brings : list str -> tree -> bound -> Prop :=
| b_path before x t b : brings (before ++ [x]) t b -> brings before (TPath x t) b
| b_name before x : is_self x = false -> brings before (TName x) (Named (before ++ [x]) x)
| b_self before x : brings (before ++ [x]) (TName (S_ "self")) (Named (before ++ [x]) x)
| b_rename before x y : is_self x = false -> brings before (TRename x y) (Named (before ++ [x]) y)
| b_rename_self before y : before <> [] -> brings before (TRename (S_ "self") y) (Named before y)
| b_star before : brings before TStar (Starred before)
| b_group before l t b : In t l -> brings before t b -> brings before (TGroup l) b.

(** How many things it brings. *)
Fixpoint leaves (t : tree) : nat :=
  match t with
  | TPath _ t => leaves t
  | TGroup l => (fix go l := match l with [] => 0 | t :: l => leaves t + go l end)%nat l
  | _ => 1%nat
  end.
(** [self] needs something before it. *)
Fixpoint proper (first : bool) (t : tree) : bool :=
  match t with
  | TPath _ t => proper false t
  | TName x | TRename x _ => negb (first && is_self x)
  | TStar => true
  | TGroup l => (fix go l := match l with [] => true | t :: l => proper first t && go l end)%bool l
  end.
Fixpoint renames_self (t : tree) : bool :=
  match t with
  | TPath _ t => renames_self t
  | TRename x _ => is_self x
  | TGroup l => (fix go l := match l with [] => false | t :: l => renames_self t || go l end)%bool l
  | _ => false
  end.

Section Tree_ind.
  Variable P : tree -> Prop.
  Hypothesis HP : forall x t, P t -> P (TPath x t).
  Hypothesis HN : forall x, P (TName x).
  Hypothesis HR : forall x y, P (TRename x y).
  Hypothesis HS : P TStar.
  Hypothesis HG : forall l, Forall P l -> P (TGroup l).
  Fixpoint tree_ind' (t : tree) : P t :=
    match t with
    | TPath x t => HP x t (tree_ind' t)
    | TName x => HN x
    | TRename x y => HR x y
    | TStar => HS
    | TGroup l => HG l ((fix go l := match l return Forall P l with
        | [] => Forall_nil _ | x :: l => Forall_cons _ (tree_ind' x) (go l) end) l)
    end.
End Tree_ind.
