(** What names and paths in Rust sources mean: the rules of the language's scopes (explicit names before
    globs, [crate] and [super], the crates and the known names of the standard library last), with the
    two kinds of names this library adds (those of the UDL file, and its descriptions of foreign types)
    before the others.  Visibility is left out.  No lookup, cache or order of lookups here. *)
From Verif Require Import Base Meta_Types Path_Types.

(** The sources are a tree of modules: a module is in one place. *)
Definition tree (r : ir) : Prop :=
  (forall m1 m2 a b k, In a (items_of r m1) -> In b (items_of r m2) ->
     i_kind a = KModule k -> i_kind b = KModule k -> a = b /\ m1 = m2) /\
  (forall x a, In (x, a) (roots r) -> exists k, i_kind a = KModule k) /\
  (forall x a y b k, In (x, a) (roots r) -> In (y, b) (roots r) ->
     i_kind a = KModule k -> i_kind b = KModule k -> a = b) /\
  (forall x a m b k, In (x, a) (roots r) -> In b (items_of r m) ->
     i_kind a = KModule k -> i_kind b <> KModule k).

(** The place of an item: from the root of its crate down. *)
Inductive place (r : ir) : rpath -> Prop :=
| place_root x it : In (x, it) (roots r) -> place r [it]
| place_child p m self it : place r (p :: self) -> i_kind p = KModule m -> In it (items_of r m) ->
    place r (it :: p :: self)
| place_std b : place r [std b].

Definition top_module (self : rpath) : option nat :=
  match self with
  | it :: _ => match i_kind it with KModule m => Some m | _ => None end
  | [] => None
  end.
(** The items of a module that are called [x] and live in the namespace [n]. *)
Definition calls (x : str) (it : item) : bool :=
  match ident it with Some y => bytes_eqb y x | None => false end.
Definition udl_called (x : str) (it : item) : bool :=
  match i_kind it with KUdl => bytes_eqb (i_name it) x | _ => false end.
Definition declared (r : ir) (m : nat) (x : str) (n : ns) : list item :=
  filter (fun it => calls x it && matches n it) (items_of r m).
Definition described (r : ir) (m : nat) (x : str) (n : ns) : list item :=
  filter special (declared r m x n).
Definition in_udl (r : ir) (m : nat) (x : str) (n : ns) : list item :=
  filter (fun it => udl_called x it && matches n it) (items_of r m).
(** The paths of [use … as x], and of [use …::*]. *)
Definition uses (r : ir) (m : nat) (x : str) : list path :=
  flat_map (fun it => match i_kind it with KUse p => if bytes_eqb (i_name it) x then [p] else [] | _ => [] end)
           (items_of r m).
Definition stars (r : ir) (m : nat) : list path :=
  flat_map (fun it => match i_kind it with KGlob p => [p] | _ => [] end) (items_of r m).
Definition within (p : path) (x : str) : path := Path (lead p) (segs p ++ [x]).
Definition is_in (n : ns) (q : rpath) : bool := match q with it :: _ => matches n it | [] => false end.
(** All but the last name of a path are names of modules. *)
Definition ns_of (rest : list str) (n : ns) : ns := match rest with [] => n | _ => NsType end.
Definition one_item (l : list rpath) : Prop :=
  forall a b, In a l -> In b l -> exists i j s t, a = i :: s /\ b = j :: t /\ is_item i j = true.
Definition reserved (x : str) : bool := bytes_eqb x (S_ "super") || bytes_eqb x (S_ "crate").
Definition crate_of (self : rpath) : option item := match rev self with it :: _ => Some it | [] => None end.

(** A name that the module does not declare itself, or only as a reference to a foreign type. *)
Definition undeclared (r : ir) (self : rpath) (x : str) (n : ns) : Prop :=
  reserved x = false /\
  forall m, top_module self = Some m ->
    in_udl r m x n = [] /\
    (declared r m x n = [] \/ exists it p, described r m x n = [it] /\ i_kind it = KRemote p).
Definition goes_out (r : ir) (self : rpath) (p : path) (n : ns) : Prop :=
  lead p = false -> self <> [] -> forall x rest, segs p = x :: rest -> undeclared r self x (ns_of rest n).

(** *** What a name may mean, by any derivation *)
Inductive may_mean (r : ir) : rpath -> str -> ns -> rpath -> Prop :=
| may_super it up x n : x = S_ "super" -> up <> [] -> may_mean r (it :: up) x n up
| may_crate self x n it : x = S_ "crate" -> crate_of self = Some it -> may_mean r self x n [it]
| may_udl self m x n u : reserved x = false -> top_module self = Some m ->
    In u (in_udl r m x n) -> may_mean r self x n (u :: self)
| may_decl self m x n it : reserved x = false -> top_module self = Some m ->
    described r m x n = [it] \/ (described r m x n = [] /\ declared r m x n = [it]) ->
    (forall p, i_kind it <> KRemote p) -> in_udl r m x n = [] -> may_mean r self x n (it :: self)
| may_remote self m x n it p q : reserved x = false -> top_module self = Some m ->
    described r m x n = [it] -> i_kind it = KRemote p -> in_udl r m x n = [] ->
    may_refer r self p n q -> may_mean r self x n q
| may_use self m x n p q : reserved x = false -> top_module self = Some m ->
    declared r m x n = [] -> in_udl r m x n = [] ->
    In p (uses r m x) -> may_refer r self p n q -> is_in n q = true -> may_mean r self x n q
| may_star self m x n p q : reserved x = false -> top_module self = Some m ->
    declared r m x n = [] -> in_udl r m x n = [] ->
    In p (stars r m) -> may_refer r self (within p x) n q -> may_mean r self x n q
with may_refer (r : ir) : rpath -> path -> ns -> rpath -> Prop :=
| may_from_here self p n q : lead p = false -> segs p <> [] -> may_go r self (segs p) n q -> may_refer r self p n q
| may_from_udl self p n x root m u : goes_out r self p n -> segs p = [x] -> crate_of self = Some root -> i_kind root = KModule m ->
    In u (items_of r m) -> udl_called x u = true -> may_refer r self p n [u; root]
| may_from_crate self p n x rest root q : goes_out r self p n -> segs p = x :: rest -> In (x, root) (roots r) ->
    may_go r [root] rest n q -> may_refer r self p n q
| may_be_known self p n b : goes_out r self p n -> std_of (segs p) = Some b -> may_refer r self p n [std b]
with may_go (r : ir) : rpath -> list str -> ns -> rpath -> Prop :=
| may_stop q n : may_go r q [] n q
| may_step a b x rest n q : may_mean r a x (ns_of rest n) b -> may_go r b rest n q -> may_go r a (x :: rest) n q.

(** *** What a name means ([Some]), or that it means nothing ([None]), without going round in circles *)
Inductive means (r : ir) : rpath -> str -> ns -> option rpath -> Prop :=
| m_super it up x n : x = S_ "super" -> up <> [] -> means r (it :: up) x n (Some up)
| m_crate self x n it : x = S_ "crate" -> crate_of self = Some it -> means r self x n (Some [it])
| m_leaf it self x n : reserved x = false -> top_module (it :: self) = None ->
    (exists k m, In k self /\ i_kind k = KModule m) -> means r (it :: self) x n None
| m_udl self m x n u : reserved x = false -> top_module self = Some m ->
    in_udl r m x n = [u] -> means r self x n (Some (u :: self))
| m_described self m x n it : reserved x = false -> top_module self = Some m ->
    in_udl r m x n = [] -> described r m x n = [it] -> (forall p, i_kind it <> KRemote p) ->
    means r self x n (Some (it :: self))
| m_remote self m x n it p o : reserved x = false -> top_module self = Some m ->
    in_udl r m x n = [] -> described r m x n = [it] -> i_kind it = KRemote p ->
    refers r self p n o -> means r self x n o
| m_declared self m x n it : reserved x = false -> top_module self = Some m ->
    in_udl r m x n = [] -> described r m x n = [] -> declared r m x n = [it] ->
    used r self n (uses r m x) [] -> means r self x n (Some (it :: self))
| m_used self m x n q l : reserved x = false -> top_module self = Some m ->
    in_udl r m x n = [] -> declared r m x n = [] ->
    used r self n (uses r m x) (q :: l) -> one_item (q :: l) -> means r self x n (Some q)
| m_star self m x n q l : reserved x = false -> top_module self = Some m ->
    in_udl r m x n = [] -> declared r m x n = [] -> used r self n (uses r m x) [] ->
    starred r self x n (stars r m) (q :: l) -> one_item (q :: l) -> means r self x n (Some q)
| m_nothing self m x n : reserved x = false -> top_module self = Some m ->
    in_udl r m x n = [] -> declared r m x n = [] -> used r self n (uses r m x) [] ->
    starred r self x n (stars r m) [] -> means r self x n None
(** The meanings, in the namespace, of the paths of some [use]s. *)
with used (r : ir) : rpath -> ns -> list path -> list rpath -> Prop :=
| used_nil self n : used r self n [] []
| used_none self n p ps l : refers r self p n None -> used r self n ps l -> used r self n (p :: ps) l
| used_other self n p ps q l : refers r self p n (Some q) -> is_in n q = false -> used r self n ps l ->
    used r self n (p :: ps) l
| used_one self n p ps q l : refers r self p n (Some q) -> is_in n q = true -> used r self n ps l ->
    used r self n (p :: ps) (q :: l)
(** The meanings of a name through some globs. *)
with starred (r : ir) : rpath -> str -> ns -> list path -> list rpath -> Prop :=
| starred_nil self x n : starred r self x n [] []
| starred_none self x n p ps l : refers r self (within p x) n None -> starred r self x n ps l ->
    starred r self x n (p :: ps) l
| starred_one self x n p ps q l : refers r self (within p x) n (Some q) -> starred r self x n ps l ->
    starred r self x n (p :: ps) (q :: l)
(** A path: from here; if its first name means nothing here, from outside. *)
with refers (r : ir) : rpath -> path -> ns -> option rpath -> Prop :=
| refers_here self p n x rest q o : lead p = false -> segs p = x :: rest ->
    means r self x (ns_of rest n) (Some q) -> goes r q rest n o -> refers r self p n o
| refers_out self p n x rest o : lead p = false -> segs p = x :: rest ->
    means r self x (ns_of rest n) None -> outside r self p n o -> refers r self p n o
| refers_lead self p n o : lead p = true -> outside r self p n o -> refers r self p n o
with goes (r : ir) : rpath -> list str -> ns -> option rpath -> Prop :=
| goes_end q n : goes r q [] n (Some q)
| goes_on a b x rest n o : means r a x (ns_of rest n) (Some b) -> goes r b rest n o -> goes r a (x :: rest) n o
| goes_not a x rest n : means r a x (ns_of rest n) None -> goes r a (x :: rest) n None
(** The UDL file of the crate, other crates, the known names. *)
with outside (r : ir) : rpath -> path -> ns -> option rpath -> Prop :=
| out_udl self p n x root m u l : segs p = [x] -> crate_of self = Some root -> i_kind root = KModule m ->
    filter (udl_called x) (items_of r m) = u :: l -> outside r self p n (Some [u; root])
| out_crate self p n x rest root m c o : segs p = x :: rest -> crate_of self = Some c -> i_kind c = KModule m ->
    (rest = [] -> filter (udl_called x) (items_of r m) = []) ->
    find_root (roots r) x = Some root -> goes r [root] rest n o -> outside r self p n o
| out_known self p n x rest m c b : segs p = x :: rest -> crate_of self = Some c -> i_kind c = KModule m ->
    (rest = [] -> filter (udl_called x) (items_of r m) = []) ->
    find_root (roots r) x = None -> std_of (segs p) = Some b -> outside r self p n (Some [std b])
| out_none self p n x rest m c : segs p = x :: rest -> crate_of self = Some c -> i_kind c = KModule m ->
    (rest = [] -> filter (udl_called x) (items_of r m) = []) ->
    find_root (roots r) x = None -> std_of (segs p) = None -> outside r self p n None.
