(** Finding a public path to an item: uniffi_parse_rs/src/public_paths.rs. *)
From Verif Require Import Base Meta_Types Path_Types Path_Spec Path_Model Pub_Spec.

(** l.9-24 [ItemNames]; the module path is kept in its parts. *)
Record names := Names { n_module : list str; n_name : str; n_orig : option str }.
(** items.rs l.118-127 [name_from_attrs]. *)
Definition alias_of (it : item) : option str :=
  match i_kind it with KRecord _ | KEnum _ | KObject _ | KFn | KTrait => i_alias it | _ => None end.
(** l.130-141. *)
Definition own_names (mp : rpath) (t : item) (x : str) : names :=
  match alias_of t with
  | None => Names (path_of mp) x None
  | Some a => Names (path_of mp) a (Some x)
  end.
(** l.152-181: [x] is the item's own name, [y] that of the [use]. *)
Definition used_names (mp : rpath) (t : item) (x y : str) : names :=
  let name := match alias_of t with Some a => a | None => x end in
  if bytes_eqb name y then Names (path_of mp) name None else Names (path_of mp) name (Some y).
Definition is_pub (it : item) : bool := match i_vis it with Public => true | Private => false end.

Section Search.
  Variable r : ir.
  Variable T : Type.
  Variable look : rpath -> path -> ns -> M T rpath.
  Variable t : item.
  Variable n : ns.
  (** The state and the modules searched so far. *)
  Definition st : Type := (T * list nat)%type.
  Definition looks (mp : rpath) (p : path) : M st rpath :=
    fun s => match look mp p n (fst s) with
             | None => None
             | Some (o, c) => Some (o, (c, snd s))
             end.
  (** l.123-219: the loop over a module's items; [again] searches another module. *)
  Fixpoint scan (again : rpath -> nat -> M st (option names)) (mp : rpath) (its : list item) : M st (option names) :=
    match its with
    | [] => ret None
    | it :: its =>
        if is_item it t then
          match ident t with
          | Some x => ret (Some (own_names mp t x))
          | None => fail Invalid
          end
        else match i_kind it with
        | KUse p =>
            if is_pub it then
              fun s =>
                match looks mp p s with
                | None => None
                | Some (Fail NotFound, s) => scan again mp its s
                | Some (Fail e, s) => Some (Fail e, s)
                | Some (Found q, s) =>
                    match q with
                    | [] => Some (Fail Invalid, s)
                    | i :: _ =>
                        if is_item i t then
                          match ident t with
                          | Some x => Some (Found (Some (used_names mp t x (i_name it))), s)
                          | None => Some (Fail Invalid, s)
                          end
                        else scan again mp its s
                    end
                end
            else scan again mp its
        | KGlob p =>
            if is_pub it then
              fun s =>
                match looks mp p s with
                | None => None
                | Some (Fail NotFound, s) => scan again mp its s
                | Some (Fail e, s) => Some (Fail e, s)
                | Some (Found q, s) =>
                    match top_module q with
                    | None => Some (Fail Invalid, s)
                    | Some k =>
                        match again q k s with
                        | None => None
                        | Some (Fail e, s) => Some (Fail e, s)
                        | Some (Found (Some nm), s) =>
                            Some (Found (Some (Names (path_of mp) (n_name nm) (n_orig nm))), s)
                        | Some (Found None, s) => scan again mp its s
                        end
                    end
                end
            else scan again mp its
        | _ => scan again mp its
        end
    end.
  (** l.110-122 [search_module], with at most [d] searches inside each other. *)
  Fixpoint search (d : nat) (mp : rpath) (m : nat) : M st (option names) :=
    match d with
    | O => fun _ => None
    | S d => fun s =>
        if existsb (Nat.eqb m) (snd s) then Some (Found None, s)
        else scan (search d) mp (items_of r m) (fst s, m :: snd s)
    end.
  (** l.85-96: the modules of one depth. *)
  Fixpoint level (d : nat) (l : list (rpath * nat)) : M st (option names) :=
    match l with
    | [] => ret None
    | (mp, m) :: l =>
        bind (search d mp m) (fun o => match o with Some _ => ret o | None => level d l end)
    end.
  (** l.97-100: the public modules in them. *)
  Definition inside (e : rpath * nat) : list (rpath * nat) :=
    flat_map (fun it => match i_kind it with
      | KModule k => if is_pub it then [(it :: fst e, k)] else []
      | _ => []
      end) (items_of r (snd e)).
  Definition below (l : list (rpath * nat)) : list (rpath * nat) := flat_map inside l.
  (** l.79-106: depth by depth, at most [b] of them. *)
  Fixpoint levels (b d : nat) (l : list (rpath * nat)) : M st (option names) :=
    match l with
    | [] => ret None
    | _ =>
        match b with
        | O => fun _ => None
        | S b => bind (level d l) (fun o => match o with Some _ => ret o | None => levels b d (below l) end)
        end
    end.
End Search.
Arguments looks {T}. Arguments scan {T}. Arguments search r {T}. Arguments level r {T}. Arguments levels r {T}.

(** l.62-65. *)
Definition ns_for (t : item) : ns := match i_kind t with KFn => NsValue | _ => NsType end.
(** l.57-107 [_public_path_to_item]. [Found None] is the error [NoPubPath]. *)
Definition public_of (r : ir) (d b : nat) (self : rpath) : M cache (option names) :=
  fun c =>
    match self with
    | t :: (_ :: _) as parent =>
        match the_root parent with
        | Some root =>
            match i_kind root with
            | KModule m =>
                match levels r (lookup r d) t (ns_for t) b d [([root], m)] (c, []) with
                | None => None
                | Some (o, s) => Some (o, fst s)
                end
            | _ => Some (Fail Invalid, c)
            end
        | None => Some (Fail Invalid, c)
        end
    | _ => Some (Fail Invalid, c)
    end.
(** l.33-54 [public_path_to_item], with the second half of the cache (paths.rs l.663-665): answers by the
    text of the path.  The wrapping of errors is left out. *)
Record pcache := PCache { p_cache : cache; p_known : list (list str * out (option names)) }.
Fixpoint p_find (l : list (list str * out (option names))) (k : list str) : option (out (option names)) :=
  match l with
  | [] => None
  | (k', o) :: l => if strs_eqb k' k then Some o else p_find l k
  end.
Definition public (r : ir) (d b : nat) (self : rpath) : M pcache (option names) :=
  fun c =>
    match p_find (p_known c) (path_of self) with
    | Some o => Some (o, c)
    | None =>
        match public_of r d b self (p_cache c) with
        | None => None
        | Some (o, c') => Some (o, PCache c' ((path_of self, o) :: p_known c))
        end
    end.
