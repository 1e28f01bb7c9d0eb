(** Finding what a path means: uniffi_parse_rs/src/paths.rs. *)
From Verif Require Import Base Meta_Types Path_Types.

(** How a lookup fails.  [NotFound] and [Cycle] are taken for "look elsewhere" by the callers;
    [Conflict] and [Invalid] ([super] above the root, internal errors) are not.  [Crash] is the panic of
    [file_id] (l.106-108), for a path without a module in it. *)
Inductive err := NotFound | Cycle | Conflict | Invalid | Crash.
Inductive out (A : Type) := Found (a : A) | Fail (e : err).
Arguments Found {A} a.
Arguments Fail {A} e.
(** A computation with a state; [None] is a recursion deeper than allowed. *)
Definition M (S A : Type) : Type := S -> option (out A * S).
Definition ret {S A} (a : A) : M S A := fun s => Some (Found a, s).
Definition fail {S A} (e : err) : M S A := fun s => Some (Fail e, s).
Definition bind {S A B} (x : M S A) (f : A -> M S B) : M S B :=
  fun s => match x s with
           | None => None
           | Some (Found a, s) => f a s
           | Some (Fail e, s) => Some (Fail e, s)
           end.
Definition catch {S A} (x : M S A) (ok : A -> M S A) (bad : err -> M S A) : M S A :=
  fun s => match x s with
           | None => None
           | Some (Found a, s) => ok a s
           | Some (Fail e, s) => bad e s
           end.

(** l.95-108: the innermost module of a path, which every located error wants. *)
Definition is_module (it : item) : bool := match i_kind it with KModule _ => true | _ => false end.
Definition at_ (self : rpath) (e : err) : err := if existsb is_module self then e else Crash.

Definition is_udl (n : str) (it : item) : bool :=
  match i_kind it with KUdl => bytes_eqb (i_name it) n | _ => false end.
Definition named (n : str) (it : item) : bool :=
  match ident it with Some x => bytes_eqb x n | None => false end.
(** l.635-645: two paths are equal if they end in the same item. *)
Definition same (a b : rpath) : bool :=
  match a, b with
  | [], [] => true
  | x :: _, y :: _ => is_item x y
  | _, _ => false
  end.
Definition last_ns (rest : list str) (n : ns) : ns := match rest with [] => n | _ => NsType end.
Definition the_root (self : rpath) : option item := match rev self with r :: _ => Some r | [] => None end.

(** What is done while a name is looked up, given how to [ask] for another. *)
Section Body.
  Variable r : ir.
  Variable S : Type.
  Variable ask : rpath -> str -> ns -> M S rpath.

  (** l.235-249 and the rest of the loop of l.180-202. *)
  Fixpoint walk (cur : rpath) (l : list str) (n : ns) : M S rpath :=
    match l with
    | [] => ret cur
    | x :: rest => bind (ask cur x (last_ns rest n)) (fun q => walk q rest n)
    end.
  (** l.207-264 [resolve_global_path]: an item of the crate's UDL file, a crate, something known. *)
  Definition udl_at_root (self : rpath) (l : list str) : out (option rpath) :=
    match l with
    | [x] =>
        match the_root self with
        | Some it =>
            match i_kind it with
            | KModule m =>
                match find (is_udl x) (items_of r m) with
                | Some u => Found (Some [u; it])
                | None => Found None
                end
            | _ => Fail Invalid
            end
        | None => Fail Invalid
        end
    | _ => Found None
    end.
  Definition global (self : rpath) (p : path) (n : ns) : M S rpath :=
    match segs p with
    | [] => fail (at_ self NotFound)
    | x :: rest =>
        match udl_at_root self (segs p) with
        | Fail e => fail e
        | Found (Some q) => ret q
        | Found None =>
            match find_root (roots r) x with
            | Some root => walk [root] rest n
            | None =>
                match std_of (segs p) with
                | Some b => ret [std b]
                | None => fail (at_ self NotFound)
                end
            end
        end
    end.
  (** l.159-205 [resolve]. *)
  Definition resolve (self : rpath) (p : path) (n : ns) : M S rpath :=
    if lead p || match self with [] => true | _ => false end then global self p n
    else match segs p with
         | [] => fail (at_ self NotFound)
         | x :: rest =>
             catch (ask self x (last_ns rest n))
               (fun q => walk q rest n)
               (fun e => match e with NotFound => global self p n | e => fail e end)
         end.

  (** l.366-407 [child_special_item]: remote types and custom types. *)
  Definition specials (m : nat) (x : str) (n : ns) : list item :=
    filter (fun it => special it && matches n it && named x it) (items_of r m).

  (** l.409-507 [child_item_or_non_glob_use]. *)
  Inductive found := FNone | FItem (it : item) | FUse (q : rpath).
  Fixpoint explicit (self : rpath) (x : str) (n : ns) (its : list item) (f : found) : M S found :=
    match its with
    | [] => ret f
    | it :: its =>
        match ident it with
        | Some y =>
            if bytes_eqb y x && matches n it then
              match f with FNone => explicit self x n its (FItem it) | _ => fail (at_ self Conflict) end
            else explicit self x n its f
        | None =>
            match i_kind it with
            | KUse p =>
                if bytes_eqb (i_name it) x then
                  fun s =>
                    match resolve self p n s with
                    | None => None
                    | Some (Fail (NotFound | Cycle), s) => explicit self x n its f s
                    | Some (Fail e, s) => Some (Fail e, s)
                    | Some (Found q, s) =>
                        match q with
                        | [] => Some (Fail Invalid, s)
                        | i :: _ =>
                            if matches n i then
                              match f with
                              | FNone => explicit self x n its (FUse q) s
                              | FUse q' => if same q' q then explicit self x n its f s
                                           else Some (Fail (at_ self Conflict), s)
                              | FItem _ => Some (Fail (at_ self Conflict), s)
                              end
                            else explicit self x n its f s
                        end
                    end
                else explicit self x n its f
            | _ => explicit self x n its f
            end
        end
    end.

  (** l.509-561 [child_glob_use]. *)
  Fixpoint globs (self : rpath) (x : str) (n : ns) (its : list item) (f : option rpath) : M S (option rpath) :=
    match its with
    | [] => ret f
    | it :: its =>
        match i_kind it with
        | KGlob p =>
            fun s =>
              match resolve self (Path (lead p) (segs p ++ [x])) n s with
              | None => None
              | Some (Fail (NotFound | Cycle), s) => globs self x n its f s
              | Some (Fail e, s) => Some (Fail e, s)
              | Some (Found q, s) =>
                  match f with
                  | None => globs self x n its (Some q) s
                  | Some q' => if same q' q then globs self x n its f s
                               else Some (Fail (at_ self Conflict), s)
                  end
              end
        | _ => globs self x n its f
        end
    end.

  (** l.317-351 [_child]; l.353-364 for the first case. *)
  Definition body (self : rpath) (m : nat) (x : str) (n : ns) : M S rpath :=
    match match find (is_udl x) (items_of r m) with
          | Some u => if matches n u then Some u else None
          | None => None
          end with
    | Some u => ret (u :: self)
    | None =>
        match specials m x n with
        | _ :: _ :: _ => fail (at_ self Conflict)
        | [it] => match i_kind it with KRemote p => resolve self p n | _ => ret (it :: self) end
        | [] =>
            bind (explicit self x n (items_of r m) FNone) (fun f =>
              match f with
              | FItem it => ret (it :: self)
              | FUse q => ret q
              | FNone =>
                  bind (globs self x n (items_of r m) None) (fun g =>
                    match g with Some q => ret q | None => fail (at_ self NotFound) end)
              end)
        end
    end.
End Body.
Arguments walk {S}. Arguments global r {S}. Arguments resolve r {S}. Arguments explicit r {S}.
Arguments globs r {S}. Arguments body r {S}.

(** l.655-663 [LookupCache]. *)
Definition key := (nat * str * ns)%type.
Definition key_eqb (a b : key) : bool :=
  match a, b with
  | (m, x, n), (m', x', n') => Nat.eqb m m' && bytes_eqb x x' && ns_eqb n n'
  end.
Record cache := Cache { c_known : list (key * out rpath); c_busy : list key }.
Fixpoint known (l : list (key * out rpath)) (k : key) : option (out rpath) :=
  match l with
  | [] => None
  | (k', o) :: l => if key_eqb k' k then Some o else known l k
  end.

Definition k_super := S_ "super".
Definition k_crate := S_ "crate".
(** l.278-299: what [child] does before it looks at the cache. *)
Definition before (self : rpath) (x : str) (n : ns) : out rpath + nat :=
  if bytes_eqb x k_super then
    inl match self with _ :: (_ :: _) => Found (tl self) | _ => Fail (at_ self Invalid) end
  else if bytes_eqb x k_crate then
    inl match the_root self with Some it => Found [it] | None => Fail (at_ self Invalid) end
  else match self with
       | [] => inl (Fail Invalid)
       | it :: _ => match i_kind it with KModule m => inr m | _ => inl (Fail (at_ self NotFound)) end
       end.
(** l.271-315 [child], with at most [d] lookups inside each other. *)
Fixpoint child (r : ir) (d : nat) (self : rpath) (x : str) (n : ns) : M cache rpath :=
  match d with
  | O => fun _ => None
  | S d =>
      match before self x n with
      | inl o => fun c => Some (o, c)
      | inr m =>
          fun c =>
            let k := (m, x, n) in
            if existsb (key_eqb k) (c_busy c) then Some (Fail (at_ self Cycle), c)
            else match known (c_known c) k with
                 | Some o => Some (o, c)
                 | None =>
                     match body r (child r d) self m x n (Cache (c_known c) (k :: c_busy c)) with
                     | None => None
                     | Some (o, c') =>
                         Some (o, Cache ((k, o) :: c_known c') (filter (fun k' => negb (key_eqb k k')) (c_busy c')))
                     end
                 end
      end
  end.
Definition lookup (r : ir) (d : nat) (self : rpath) (p : path) (n : ns) : M cache rpath :=
  resolve r (child r d) self p n.
Definition fresh : cache := Cache [] [].
(** The lookups of one run, one after the other with one cache (ir.rs l.153-169, l.185). *)
Definition query := (rpath * path * ns)%type.
Fixpoint session (r : ir) (d : nat) (qs : list query) (c : cache) : option (list (out rpath) * cache) :=
  match qs with
  | [] => Some ([], c)
  | (self, p, n) :: qs =>
      match lookup r d self p n c with
      | None => None
      | Some (o, c) =>
          match session r d qs c with Some (os, c) => Some (o :: os, c) | None => None end
      end
  end.
