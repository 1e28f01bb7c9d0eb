(** * Objects and trait objects crossing the FFI in both directions

    One machine with both sides of the FFI:
    - the Rust heap of [Arc] allocations with their strong counts,
    - the foreign handle map of one trait interface,
    - the references Rust code holds, the foreign wrapper objects, and the
      handles in transit.

    The allocator may choose any free, non-zero, even address (an [Arc] of an
    object or of an [Arc] is at least 2-aligned) and may reuse released ones.

    Modelled: uniffi_core/src/ffi/handle.rs, the [FfiConverterArc] implementations
    of uniffi_macros/src/object.rs l.193-225 and export/trait_interface.rs
    l.125-245 ([TraitKind::Both]), the proxy struct of
    export/callback_interface.rs l.106-140, and the foreign converters
    uniffi_bindgen/src/bindings/python/templates/{HandleMap,InterfaceTemplate}.py
    (the Kotlin and Swift templates have the same shape).

    Simplification: one object type, one trait; each FFI function is one atomic
    step.  Steps of different threads may be interleaved freely.  The foreign
    garbage collector is represented by the schedule: a wrapper can be freed
    once, at any time. *)

From Verif Require Import Base.

Definition addr := Z.

(** What an allocation holds. *)
Inductive content :=
| CObj (id : Z)         (* a Rust object, or a Rust implementation of the trait *)
| CProxy (h : Z)        (* callback_interface.rs l.106-115: a foreign implementation *)
| CBox (a : addr).      (* trait_interface.rs l.187-195: the inner [Arc] of a double [Arc] *)

(** The type a handle was lowered with. *)
Inductive hty := TObj | TTrait.

(** Who an object is, independently of how it is referred to. *)
Inductive who := Rust (id : Z) | Foreign (id : Z).

Definition heap := list (addr * (content * nat)).
Definition fmap := list (Z * Z).

Inductive event :=
| ENew (id : Z)                 (* a Rust object was created *)
| EDrop (id : Z)                (* its destructor ran *)
| EUse (of on : who)            (* a method of [of] was called and ran on [on] *)
| ESent (w : who) (h : Z)       (* it was lowered as handle h *)
| EGot (sent got : who) (h : Z) (* handle h, lowered for [sent], was lifted and denotes [got] *)
| EBad.                         (* a released allocation or an invalid handle was used *)

(** A handle in transit, with (ghost) the identity it was lowered for. *)
Record transit := T { t_ty : hty; t_h : Z; t_who : who }.

Record st := mk {
  hp : heap;
  fm : fmap; next : Z;           (* the foreign handle map *)
  (* references carry (ghost) the identity of the object they were made for *)
  roots : list (addr * who);     (* Arcs held by Rust code *)
  wraps : list (hty * Z * who);  (* foreign wrappers *)
  fobjs : list Z;                (* foreign objects the foreign side holds directly *)
  to_f : list transit; to_r : list transit;
  log : list event }.

(** HandleMap.py l.3, l.15 *)
Definition init : st := mk [] [] 1 [] [] [] [] [] [].

(** ** The Rust heap *)

Fixpoint lookup {A} (a : Z) (l : list (Z * A)) : option A :=
  match l with
  | [] => None
  | (b, x) :: l' => if Z.eqb a b then Some x else lookup a l'
  end.

Fixpoint del {A} (a : Z) (l : list (Z * A)) : list (Z * A) :=
  match l with
  | [] => []
  | (b, x) :: l' => if Z.eqb a b then l' else (b, x) :: del a l'
  end.

Fixpoint setn (a : Z) (n : nat) (l : heap) : heap :=
  match l with
  | [] => []
  | (b, (c, m)) :: l' => if Z.eqb a b then (b, (c, n)) :: l' else (b, (c, m)) :: setn a n l'
  end.

(** A heap, a handle map and the events of one operation. *)
Definition hm := (heap * fmap * list event)%type.

(** Dropping an [Arc]: [Drop] of the content runs when the count reaches zero.
    callback_interface.rs l.134-139: dropping a proxy calls [uniffi_free],
    which removes the handle from the foreign map
    (CallbackInterfaceImpl.py l.95-97).  Dropping a double [Arc] drops the
    inner one; [fuel] bounds this nesting. *)
Fixpoint drop (fuel : nat) (a : addr) (s : hm) : hm :=
  let '(H, M, ev) := s in
  match lookup a H with
  | None => (H, M, EBad :: ev)
  | Some (c, S (S n)) => (setn a (S n) H, M, ev)
  | Some (c, _) =>
      let H' := del a H in
      match c with
      | CObj id => (H', M, EDrop id :: ev)
      | CProxy h =>
          match lookup h M with
          | Some _ => (H', del h M, ev)
          | None => (H', M, EBad :: ev)
          end
      | CBox b =>
          match fuel with
          | O => (H', M, EBad :: ev)
          | S f => drop f b (H', M, ev)
          end
      end
  end.

(** handle.rs l.92-96 [clone_arc_handle] and [Arc::clone]. *)
Definition inc (a : addr) (s : hm) : hm :=
  let '(H, M, ev) := s in
  match lookup a H with
  | None => (H, M, EBad :: ev)
  | Some (_, n) => (setn a (S n) H, M, ev)
  end.

(** ** Who is denoted *)

Definition den (H : heap) (M : fmap) (a : addr) : option who :=
  match lookup a H with
  | Some (CObj id, _) => Some (Rust id)
  | Some (CProxy h, _) => option_map Foreign (lookup h M)
  | _ => None
  end.

(** handle.rs l.33-38 [is_foreign]; the foreign templates test the same bit
    (InterfaceTemplate.py l.133). *)
Definition is_foreign (h : Z) : bool := Z.odd h.

Definition den_handle (H : heap) (M : fmap) (t : hty) (h : Z) : option who :=
  match t with
  | TObj => den H M h
  | TTrait =>
      if is_foreign h then option_map Foreign (lookup h M)
      else match lookup h H with Some (CBox a, _) => den H M a | _ => None end
  end.

(** ** Operations *)

Inductive op :=
| RNew (id : Z) (a : addr)        (* Rust creates an object at address a *)
| RClone (i : nat)                (* Rust code clones / drops / uses Arc i of those it holds *)
| RDrop (i : nat)
| RUse (i : nat)
| RLowerObj (i : nat)             (* Rust passes an object out *)
| RLowerTrait (i : nat) (b : addr) (* Rust passes a trait object out; b is where a new Arc would go *)
| RLift (i : nat) (b : addr)      (* Rust lifts handle i; b is where a new Arc would go *)
| FNew (id : Z)                   (* the foreign side creates an implementation *)
| FLift (i : nat)
| FLowerObj (i : nat)             (* the foreign side passes foreign object i *)
| FLowerWrap (i : nat)            (* ... or wrapper i (also: calls a method on it) *)
| FFree (i : nat).                (* wrapper i is finalised *)

Fixpoint remove_nth {A} (i : nat) (l : list A) : list A :=
  match l, i with
  | [], _ => []
  | _ :: l', O => l'
  | x :: l', S i' => x :: remove_nth i' l'
  end.

(** Addresses the allocator may return. *)
Definition can_alloc (a : addr) (H : heap) : bool :=
  Z.even a && negb (Z.eqb a 0) && match lookup a H with None => true | _ => false end.

Definition set_hm (x : hm) (s : st) : st :=
  let '(H, M, ev) := x in mk H M (next s) (roots s) (wraps s) (fobjs s) (to_f s) (to_r s) ev.
Definition get_hm (s : st) : hm := (hp s, fm s, log s).
Definition set_roots (l : list (addr * who)) (s : st) : st :=
  mk (hp s) (fm s) (next s) l (wraps s) (fobjs s) (to_f s) (to_r s) (log s).
Definition set_wraps (l : list (hty * Z * who)) (s : st) : st :=
  mk (hp s) (fm s) (next s) (roots s) l (fobjs s) (to_f s) (to_r s) (log s).
Definition set_fobjs (l : list Z) (s : st) : st :=
  mk (hp s) (fm s) (next s) (roots s) (wraps s) l (to_f s) (to_r s) (log s).
Definition set_to_f (l : list transit) (s : st) : st :=
  mk (hp s) (fm s) (next s) (roots s) (wraps s) (fobjs s) l (to_r s) (log s).
Definition set_to_r (l : list transit) (s : st) : st :=
  mk (hp s) (fm s) (next s) (roots s) (wraps s) (fobjs s) (to_f s) l (log s).
Definition ev (e : event) (s : st) : st :=
  mk (hp s) (fm s) (next s) (roots s) (wraps s) (fobjs s) (to_f s) (to_r s) (e :: log s).

Definition alloc (a : addr) (c : content) (s : st) : st :=
  set_hm ((a, (c, 1)) :: hp s, fm s, log s) s.

(** HandleMap.py l.22-26 *)
Definition fm_insert (id : Z) (s : st) : st * Z :=
  (mk (hp s) ((next s, id) :: fm s) (next s + 2) (roots s) (wraps s) (fobjs s) (to_f s) (to_r s) (log s), next s).

(** Send handle [h] for the object [w]. *)
Definition send_f (t : hty) (h : Z) (w : who) (s : st) : st :=
  ev (ESent w h) (set_to_f (T t h w :: to_f s) s).
Definition send_r (t : hty) (h : Z) (w : who) (s : st) : st :=
  ev (ESent w h) (set_to_r (T t h w :: to_r s) s).

Definition dropped (a : addr) (s : st) : st := set_hm (drop 1 a (get_hm s)) s.

Definition step (s : st) (o : op) : option st :=
  match o with
  | RNew id a =>
      if can_alloc a (hp s)
      then Some (ev (ENew id) (set_roots ((a, Rust id) :: roots s) (alloc a (CObj id) s)))
      else None
  | RClone i =>
      match nth_error (roots s) i with
      | Some (a, w) => Some (set_roots ((a, w) :: roots s) (set_hm (inc a (get_hm s)) s))
      | None => None
      end
  | RDrop i =>
      match nth_error (roots s) i with
      | Some (a, w) => Some (dropped a (set_roots (remove_nth i (roots s)) s))
      | None => None
      end
  | RUse i =>
      (* a method call; on a proxy it goes through the vtable to the handle map
         (CallbackInterfaceImpl.py l.22) *)
      match nth_error (roots s) i with
      | Some (a, w) =>
          Some (match den (hp s) (fm s) a with Some g => ev (EUse w g) s | None => ev EBad s end)
      | None => None
      end
  | RLowerObj i =>
      (* object.rs l.193-197: the Arc becomes the handle; only object types use this converter *)
      match nth_error (roots s) i with
      | Some (a, w) =>
          match lookup a (hp s) with
          | Some (CObj _, _) => Some (send_f TObj a w (set_roots (remove_nth i (roots s)) s))
          | _ => None
          end
      | None => None
      end
  | RLowerTrait i b =>
      match nth_error (roots s) i with
      | Some (a, w) =>
          match lookup a (hp s) with
          | Some (CProxy h, _) =>
              (* trait_interface.rs l.198-206, callback_interface.rs l.48-55: clone the
                 foreign handle (HandleMap.py l.35-41), then drop our Arc *)
              let s := set_roots (remove_nth i (roots s)) s in
              match lookup h (fm s) with
              | Some id =>
                  let '(s, h') := fm_insert id s in
                  Some (dropped a (send_f TTrait h' w s))
              | None => Some (ev EBad s)
              end
          | _ =>
              (* trait_interface.rs l.187-195: wrap in a second Arc *)
              if can_alloc b (hp s) then
                Some (send_f TTrait b w (alloc b (CBox a) (set_roots (remove_nth i (roots s)) s)))
              else None
          end
      | None => None
      end
  | RLift i b =>
      match nth_error (to_r s) i with
      | None => None
      | Some (T t h w) =>
          let s := set_to_r (remove_nth i (to_r s)) s in
          match t with
          | TObj =>
              (* object.rs l.200-203 *)
              let got := match den (hp s) (fm s) h with Some g => EGot w g h | None => EBad end in
              Some (ev got (set_roots ((h, w) :: roots s) s))
          | TTrait =>
              if is_foreign h then
                (* trait_interface.rs l.156-159: a new proxy *)
                if can_alloc b (hp s) then
                  let got := match lookup h (fm s) with Some id => EGot w (Foreign id) h | None => EBad end in
                  Some (ev got (set_roots ((b, w) :: roots s) (alloc b (CProxy h) s)))
                else None
              else
                (* trait_interface.rs l.160-172: clone the inner Arc, drop the outer *)
                match lookup h (hp s) with
                | Some (CBox a, _) =>
                    let got := match den (hp s) (fm s) a with Some g => EGot w g h | None => EBad end in
                    let s := set_hm (inc a (get_hm s)) s in
                    Some (dropped h (ev got (set_roots ((a, w) :: roots s) s)))
                | _ => Some (ev EBad s)
                end
          end
      end
  | FNew id => Some (set_fobjs (id :: fobjs s) s)
  | FLift i =>
      match nth_error (to_f s) i with
      | None => None
      | Some (T t h w) =>
          let s := set_to_f (remove_nth i (to_f s)) s in
          match t with
          | TObj =>
              (* InterfaceTemplate.py l.93-95 *)
              let got := match den_handle (hp s) (fm s) TObj h with Some g => EGot w g h | None => EBad end in
              Some (ev got (set_wraps ((TObj, h, w) :: wraps s) s))
          | TTrait =>
              (* InterfaceTemplate.py l.131-139 *)
              if is_foreign h then
                match lookup h (fm s) with
                | Some id =>
                    Some (ev (EGot w (Foreign id) h)
                      (set_fobjs (id :: fobjs s) (set_hm (hp s, del h (fm s), log s) s)))
                | None => Some (ev EBad s)
                end
              else
                let got := match den_handle (hp s) (fm s) TTrait h with Some g => EGot w g h | None => EBad end in
                Some (ev got (set_wraps ((TTrait, h, w) :: wraps s) s))
          end
      end
  | FLowerObj i =>
      (* InterfaceTemplate.py l.151-153 *)
      match nth_error (fobjs s) i with
      | None => None
      | Some id => let '(s, h) := fm_insert id s in Some (send_r TTrait h (Foreign id) s)
      end
  | FLowerWrap i =>
      (* InterfaceTemplate.py l.103-104, l.148-150: clone the handle *)
      match nth_error (wraps s) i with
      | None => None
      | Some (t, h, w) => Some (send_r t h w (set_hm (inc h (get_hm s)) s))
      end
  | FFree i =>
      (* InterfaceTemplate.py l.33-37 and object.rs l.125-136 *)
      match nth_error (wraps s) i with
      | None => None
      | Some (t, h, w) => Some (dropped h (set_wraps (remove_nth i (wraps s)) s))
      end
  end.

Fixpoint run (s : st) (os : list op) : option st :=
  match os with
  | [] => Some s
  | o :: os' => match step s o with Some s' => run s' os' | None => None end
  end.
