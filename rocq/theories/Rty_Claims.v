(** Statements about resolving the types of signatures (C60). *)
From Verif Require Import Base Meta_Types Path_Types Path_Spec Path_Model Path_Claims Pub_Spec Pub_Model Pub_Claims
  Rty_Types Rty_Spec Rty_Model.

(** How items should be called: by the name for the bindings, in a public module that offers them. *)
Definition named_publicly (r : ir) (q : rpath) (l : list str) (x : str) : Prop :=
  exists it root nm, asked q it root /\ found_names r it root nm /\ l = n_module nm /\ x = n_name nm.
(** How they are called: custom types in the module they are in, traits by their name in Rust, in some module. *)
Definition named_somehow (r : ir) (q : rpath) (l : list str) (x : str) : Prop :=
  match q with
  | [] => False
  | it :: up =>
      match i_kind it with
      | KCustom => l = path_of up /\ x = item_name it
      | KTrait => x = item_name it /\ exists m, place r m /\ l = path_of m
      | _ => named_publicly r q l x
      end
  end.
Definition may_be (w : world) : rpath -> path -> rpath -> Prop := fun self p q => may_refer (w_ir w) self p NsType q.
Definition is_ (w : world) : rpath -> path -> rpath -> Prop := fun self p q => refers (w_ir w) self p NsType (Some q).

(** Parameters where they are seen: as arguments of an alias's own type, not deeper. *)
Definition is_param (xs : list str) (p : path) (args : list garg) : bool :=
  match lead p, segs p, args with
  | false, [x], [] => existsb (bytes_eqb x) xs
  | _, _, _ => false
  end.
Fixpoint mentions (xs : list str) (t : sty) : bool :=
  match t with
  | SPath p args =>
      is_param xs p args ||
      (fix go (l : list garg) : bool :=
         match l with
         | [] => false
         | GType t :: l => mentions xs t || go l
         | GOther :: l => go l
         end) args
  | SRef _ t | SSlice t | SParen t => mentions xs t
  | SUnit | SDyn _ | SOther => false
  end.
Definition plain_arg (xs : list str) (g : garg) : bool :=
  match g with
  | GType t => match t with SPath p args => is_param xs p args || negb (mentions xs t) | _ => negb (mentions xs t) end
  | GOther => true
  end.
Fixpoint plain_type (xs : list str) (t : sty) : bool :=
  match t with
  | SPath p args => negb (is_param xs p args) && forallb (plain_arg xs) args
  | SRef _ t | SSlice t | SParen t => plain_type xs t
  | SUnit | SDyn _ | SOther => true
  end.
Definition plain_alias (a : alias_def) : bool :=
  let xs := map fst (a_params a) in
  negb (existsb (bytes_eqb self_name) xs) && plain_type xs (a_ty a) &&
  forallb (fun e => match snd e with Some t => negb (mentions xs t) | None => true end) (a_params a).
Definition plain (w : world) : Prop := forall it, plain_alias (w_alias w it) = true.
(** No lifetimes or constants among arguments. *)
Fixpoint only_types (t : sty) : bool :=
  match t with
  | SPath _ args =>
      (fix go (l : list garg) : bool :=
         match l with
         | [] => true
         | GType t :: l => only_types t && go l
         | GOther :: _ => false
         end) args
  | SRef _ t | SSlice t | SParen t => only_types t
  | SUnit | SDyn _ | SOther => true
  end.
Definition types_only (w : world) : Prop :=
  (forall it, only_types (a_ty (w_alias w it)) = true) /\
  (forall it x t, In (x, Some t) (a_params (w_alias w it)) -> only_types t = true) /\
  forall it, only_types (w_custom w it) = true.
(** Every record, enum and object is offered by a public module of its crate. *)
Definition all_offered (r : ir) : Prop :=
  forall it up, place r (it :: up) -> nominal it = true -> exists root q x i,
    crate_of (it :: up) = Some root /\ pub_module r root q /\ does_offer r NsType q x i /\ is_path_to it i.

(** The three ways a type is resolved: as it is, as an argument, as a result. *)
Definition as_type (w : world) (d b f : nat) (s : option ty) (self : rpath) (t : sty) : M pcache ty :=
  bind (rtype w d b f self t [] []) (fun t => match to_meta s t with Some t => ret t | None => fail Invalid end).
Definition as_argument (w : world) (d b f : nat) (s : option ty) (self : rpath) (t : sty) : M pcache (ty * pass_by) :=
  bind (rtype w d b f self t [] []) (fun t => match arg_meta s t with Some t => ret t | None => fail Invalid end).
Definition as_return (w : world) (d b f : nat) (s : option ty) (self : rpath) (t : sty) : M pcache (option ty * option ty) :=
  bind (rtype w d b f self t [] []) (fun t => match result_meta s t with Some t => ret t | None => fail Invalid end).
Definition as_self (w : world) (d b f : nat) (self : rpath) (t : sty) : M pcache bool :=
  bind (rtype w d b f self t [] []) (fun t => match self_meta t with Some t => ret t | None => fail Invalid end).

(** *** What is recorded is what the type may denote, whatever was looked up before *)
Section Sound.
  Variable ok : world -> Prop.
  Variable called : ir -> rpath -> list str -> str -> Prop.
  Definition type_sound : Prop :=
    forall w d b f s self t c T c', tree (w_ir w) -> own_addresses (w_ir w) -> one_of_each (w_ir w) -> ok w ->
      place (w_ir w) self -> reached (w_ir w) d b c -> as_type w d b f s self t c = Some (Found T, c') ->
      exists m, denotes w (may_be w) self [] t m /\ records w (called (w_ir w)) s m T.
  Definition arg_sound : Prop :=
    forall w d b f s self t c T p c', tree (w_ir w) -> own_addresses (w_ir w) -> one_of_each (w_ir w) -> ok w ->
      place (w_ir w) self -> reached (w_ir w) d b c -> as_argument w d b f s self t c = Some (Found (T, p), c') ->
      exists m, denotes w (may_be w) self [] t m /\ as_arg w (called (w_ir w)) s m T p.
  Definition return_sound : Prop :=
    forall w d b f s self t c T e c', tree (w_ir w) -> own_addresses (w_ir w) -> one_of_each (w_ir w) -> ok w ->
      place (w_ir w) self -> reached (w_ir w) d b c -> as_return w d b f s self t c = Some (Found (T, e), c') ->
      exists m, denotes w (may_be w) self [] t m /\ as_result w (called (w_ir w)) s m T e.
End Sound.
Definition self_sound : Prop :=
  forall w d b f self t c a c', tree (w_ir w) -> own_addresses (w_ir w) -> one_of_each (w_ir w) -> plain w ->
    place (w_ir w) self -> reached (w_ir w) d b c -> as_self w d b f self t c = Some (Found a, c') ->
    denotes w (may_be w) self [] t (if a then MArc MSelf else MRef false MSelf).

(** *** A type that denotes something is resolved to that, with enough steps *)
Section Complete.
  Variable ok : world -> sty -> Prop.
  Definition type_found : Prop :=
    forall w s self t m, tree (w_ir w) -> own_addresses (w_ir w) -> one_of_each (w_ir w) -> settled (w_ir w) NsType ->
      all_offered (w_ir w) -> ok w t -> place (w_ir w) self -> denotes w (is_ w) self [] t m ->
      (exists T, records w (named_somehow (w_ir w)) s m T) ->
      exists n, forall d b f c, (n <= d)%nat -> (n <= b)%nat -> (n <= f)%nat -> reached (w_ir w) d b c ->
        exists T c', as_type w d b f s self t c = Some (Found T, c') /\ records w (named_somehow (w_ir w)) s m T.
  (** In any number of steps, it is resolved to nothing else. *)
  Definition type_exact (called : ir -> rpath -> list str -> str -> Prop) : Prop :=
    forall w s self t m, tree (w_ir w) -> own_addresses (w_ir w) -> one_of_each (w_ir w) -> settled (w_ir w) NsType ->
      all_offered (w_ir w) -> ok w t -> place (w_ir w) self -> denotes w (is_ w) self [] t m ->
      (exists T, records w (named_somehow (w_ir w)) s m T) ->
      forall d b f c o c', reached (w_ir w) d b c -> as_type w d b f s self t c = Some (o, c') ->
        exists T, o = Found T /\ records w (called (w_ir w)) s m T.
End Complete.
Definition all_plain (w : world) (t : sty) : Prop :=
  plain w /\ types_only w /\ only_types t = true.

(** *** Statements that do not hold *)
(** Hypotheses that are left out, one at a time: parameters only as arguments of an alias's own type; types only
    among arguments. *)
Definition not_nested (w : world) (t : sty) : Prop := types_only w /\ only_types t = true.
Definition with_lifetimes (w : world) (t : sty) : Prop := plain w.
(** Names are public ones: without custom types, of one crate or without names for bindings; without traits. *)
Definition without (w : world) (bad : item -> bool) : Prop := forall it up, place (w_ir w) (it :: up) -> bad it = false.
Definition custom_item (it : item) : bool := match i_kind it with KCustom => true | _ => false end.
Definition trait_item (it : item) : bool := match i_kind it with KTrait => true | _ => false end.
Definition renamed_item (it : item) : bool := match i_alias it with Some _ => true | None => false end.
Definition traits_of_crates (w : world) (t : sty) : Prop := all_plain w t /\ without w custom_item /\ without w renamed_item.
Definition traits_renamed (w : world) (t : sty) : Prop :=
  all_plain w t /\ without w custom_item /\ exists root, roots (w_ir w) = [root].
Definition customs_only (w : world) (t : sty) : Prop := all_plain w t /\ without w trait_item.
(** Circular aliases are reported. *)
Definition type_ends_statement : Prop :=
  forall w self t, tree (w_ir w) -> own_addresses (w_ir w) -> one_of_each (w_ir w) -> plain w -> place (w_ir w) self ->
    exists f, rtype w 20 20 f self t [] [] (PCache fresh []) <> None.
