(** Statements about [use] declarations (C58). *)
From Verif Require Import Base Meta_Types Path_Types Path_Spec Path_Model Use_Spec Use_Model.

Definition as_made (v : vis) (leading : bool) (b : bound) : made :=
  match b with Named p x => MUse v (Path leading p) x | Starred p => MGlob v (Path leading p) end.
(** Trees without [self as]: exactly what Rust brings, each once. *)
Definition brings_statement : Prop :=
  forall v leading t, proper true t = true -> renames_self t = false ->
    exists l, parse_use v leading t = Some l /\ length l = leaves t /\
      forall m, In m l <-> exists b, brings [] t b /\ m = as_made v leading b.
(** Every tree: one item for each leaf, all with the declaration's visibility; refused only for a
    [self] with nothing before it. *)
Definition vis_of (m : made) : vis := match m with MUse v _ _ | MGlob v _ => v end.
Definition lead_of (m : made) : bool := match m with MUse _ p _ | MGlob _ p => lead p end.
Definition shape_statement : Prop :=
  forall v leading t,
    match parse_use v leading t with
    | Some l => length l = leaves t /\ (forall m, In m l -> vis_of m = v /\ lead_of m = leading)
    | None => proper true t = false
    end.
(** Also [self as x]. *)
Definition rename_self_statement : Prop :=
  forall v leading t, proper true t = true ->
    exists l, parse_use v leading t = Some l /\
      forall m, In m l <-> exists b, brings [] t b /\ m = as_made v leading b.
(** [self] with nothing before it is refused. *)
Definition refused_statement : Prop :=
  forall v leading t, proper true t = false -> parse_use v leading t = None.
(** The name [self as y] gives a module can be looked up. *)
Definition item_of (i : nat) (m : made) : item :=
  match m with
  | MUse v p x => Item (Src i) x None v (KUse p)
  | MGlob v p => Item (Src i) [] None v (KGlob p)
  end.
Definition lookup_statement : Prop :=
  forall r d root k x m y its i p o c,
    roots r = [(k, root)] -> i_kind root = KModule 0%nat -> items_of r 0 = m :: its ->
    i_kind m = KModule 1%nat -> ident m = Some x ->
    parse_use Private false (TPath x (TGroup [TRename (S_ "self") y])) = Some [p] -> its = [item_of i p] ->
    lookup r d [root] (Path false [y]) NsType fresh = Some (o, c) -> o = Found [m; root].
