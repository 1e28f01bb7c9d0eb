(** Foreign implementations of Rust traits: the vtables, uniffi_macros/src/export/callback_interface.rs,
    the calls through them and the life of the handles. *)
From Verif Require Import Base Meta_Types.
Local Open Scope Z_scope.

(** * Vtables *)

(** A method of an exported trait: its Rust name and its metadata, where the name may have been
    changed (uniffi_macros/src/fnsig.rs l.99-113). *)
Record sig := Sig { s_ident : str; s_meta : fn_meta }.

(** uniffi_macros/src/export/item.rs l.196-233: the position in the trait is the index. *)
Fixpoint items_from (i : Z) (trait : str) (sigs : list sig) : list metadata :=
  match sigs with
  | [] => []
  | s :: sigs => MTraitMethod trait (i mod 2 ^ 32) (s_meta s) :: items_from (i + 1) trait sigs
  end.
Definition trait_items (trait : str) (sigs : list sig) : list metadata := items_from 0 trait sigs.

(** callback_interface.rs l.103-108: the fields of the struct that Rust reads.  The struct is not
    [repr(C)]; its fields are taken to be in the order in which they are declared. *)
Definition rust_vtable (sigs : list sig) : list str :=
  S_ "uniffi_free" :: S_ "uniffi_clone" :: map s_ident sigs.

Fixpoint position (x : str) (l : list str) : option nat :=
  match l with
  | [] => None
  | y :: l => if bytes_eqb x y then Some 0%nat else option_map S (position x l)
  end.

(** What the foreign code puts in a slot; methods by the name that the metadata gives them. *)
Inductive entry := EFree | EClone | EMethod (name : str).

(** uniffi_bindgen/src/interface/callbacks.rs l.238-260 and
    pipeline/general/callback_interfaces.rs l.30-56, l.211-253, with the templates
    CallbackInterfaceImpl.{py l.103-109, kt l.101-107, swift l.13-30}. *)
Definition foreign_vtable (methods : list fn_meta) : list entry :=
  EFree :: EClone :: map (fun f => EMethod (f_name f)) methods.

(** Sorting, as a stable insertion sort. *)
Section Sort.
Context {A : Type} (leb : A -> A -> bool).
Fixpoint insert (x : A) (l : list A) : list A :=
  match l with
  | [] => [x]
  | y :: l => if leb x y then x :: y :: l else y :: insert x l
  end.
Fixpoint isort (l : list A) : list A :=
  match l with [] => [] | x :: l => insert x (isort l) end.
End Sort.

(** Lexicographic order. *)
Fixpoint lex_leb (a b : list Z) : bool :=
  match a, b with
  | [], _ => true
  | _ :: _, [] => false
  | x :: a, y :: b => if x <? y then true else if y <? x then false else lex_leb a b
  end.

(** A string in a longer key: the end comes before every byte. *)
Definition key_str (s : str) : list Z := map (fun b => Z.of_N (b2n b) + 1) s ++ [0].

(** The derived order of [Metadata], uniffi_meta/src/lib.rs l.217-234, l.575-595: the variants in
    order, then module path, trait name and index; module path, owner and name for methods.
    Simplification: the remaining fields and other variants are not compared. *)
Definition item_key (m : metadata) : list Z :=
  match m with
  | MMethod owner f => 8 :: key_str (f_mp f) ++ key_str owner ++ key_str (f_name f)
  | MTraitMethod t i f => 9 :: key_str (f_mp f) ++ key_str t ++ [i]
  | _ => [0]
  end.
Definition item_leb (a b : metadata) : bool := lex_leb (item_key a) (item_key b).

(** uniffi_meta/src/group.rs l.66: the items are a [BTreeSet]. *)
Definition set_order (items : list metadata) : list metadata := isort item_leb items.

(** uniffi_bindgen/src/interface/mod.rs l.1133-1165 [add_trait_method_meta] and [add_method_meta]: the
    methods of one trait after these items, in this order.  [callback]: it is a callback interface and
    not an object. *)
Fixpoint ci_add (callback : bool) (trait : str) (methods : list fn_meta) (items : list metadata)
    : res (list fn_meta) :=
  match items with
  | [] => Ok methods
  | MTraitMethod t i f :: items =>
      if bytes_eqb t trait then
        if callback && negb (Z.of_nat (length methods) =? i) then Err
        else ci_add callback trait (methods ++ [f]) items
      else ci_add callback trait methods items
  | MMethod t f :: items =>
      if bytes_eqb t trait then
        if callback then Err else ci_add callback trait (methods ++ [f]) items
      else ci_add callback trait methods items
  | _ :: items => ci_add callback trait methods items
  end.
Definition ci_methods (callback : bool) (trait : str) (items : list metadata) : res (list fn_meta) :=
  ci_add callback trait [] (set_order items).

(** uniffi_bindgen/src/pipeline/initial/from_uniffi_meta.rs l.165-190: maps from names to methods, in
    the order of the names; a second method of the same name is an error. *)
Definition name_leb (a b : str) : bool := lex_leb (key_str a) (key_str b).
Fixpoint pl_methods_of (trait : str) (items : list metadata) : list fn_meta :=
  match items with
  | [] => []
  | MMethod t f :: items => if bytes_eqb t trait then f :: pl_methods_of trait items else pl_methods_of trait items
  | _ :: items => pl_methods_of trait items
  end.
Fixpoint pl_trait_methods_of (trait : str) (items : list metadata) : list (Z * fn_meta) :=
  match items with
  | [] => []
  | MTraitMethod t i f :: items =>
      if bytes_eqb t trait then (i, f) :: pl_trait_methods_of trait items else pl_trait_methods_of trait items
  | _ :: items => pl_trait_methods_of trait items
  end.
(** pipeline/initial/context.rs l.68-93 [methods_for_type]. *)
Fixpoint distinct (names : list str) : bool :=
  match names with
  | [] => true
  | x :: names => negb (existsb (bytes_eqb x) names) && distinct names
  end.
Definition pl_methods (trait : str) (items : list metadata) : res (list fn_meta) :=
  let ms := pl_methods_of trait items in
  let tms := pl_trait_methods_of trait items in
  if distinct (map f_name ms) && distinct (map (fun x => f_name (snd x)) tms) then
    match ms, tms with
    | [], _ =>
        let by_name := isort (fun a b => name_leb (f_name (snd a)) (f_name (snd b))) tms in
        Ok (map snd (isort (fun a b => fst a <=? fst b) by_name))
    | _, [] => Ok (isort (fun a b => name_leb (f_name a) (f_name b)) ms)
    | _, _ => Err
    end
  else Err.

(** * Calls *)
Section Calls.
(** Types; Rust values and errors; values in FFI form; foreign values, exceptions that are declared
    errors, and foreign objects. *)
Context {T V E F W X O : Type}.

(** [Fatal]: Python exceptions that are not an [Exception], such as KeyboardInterrupt, SystemExit and
    asyncio.CancelledError. *)
Inductive exn := Declared (x : X) | Other (msg : bytes) | Fatal (msg : bytes).
Inductive outcome := Returns (w : W) | Raises (e : exn).

(** The converters of both sides, and the foreign objects. *)
Variable r_lower : T -> V -> F.
Variable r_lift : T -> F -> V + bytes.
Variable r_lift_error : bytes -> E + bytes.
Variable from_unexpected : option (bytes -> E).
Variable f_lift : T -> F -> W + exn.
Variable f_lower : T -> W -> F + exn.
Variable f_lower_error : X -> bytes + exn.
Variable call : O -> str -> list W -> outcome.
Variable ffi_default : T -> F.
Variable unit_value : V.
Variable unit_ffi : F.

Inductive lang := Python | Kotlin | Swift.

(** A method: the types of its arguments and result, and whether it declares an error. *)
Record mtype := MType { m_args : list T; m_ret : option T; m_throws : bool }.

Definition code_success := 0.
Definition code_error := 1.
Definition code_unexpected := 2.

(** The call status and the returned value after the foreign function is done. *)
Record answer := Answer { a_code : Z; a_buf : bytes; a_ret : F }.
(** uniffi_macros/src/export/callback_interface.rs l.248-249: what they are before. *)
Definition blank (m : mtype) : answer :=
  Answer code_success [] (match m_ret m with Some t => ffi_default t | None => unit_ffi end).

(** A call of a method of a foreign object. *)
Record invocation := Invoke { i_obj : O; i_method : str; i_args : list W }.

(** CallbackInterfaceImpl.py l.23-26 [make_call]: lift the arguments, call the method. *)
Fixpoint lift_all (ts : list T) (fs : list F) : list W + exn :=
  match ts, fs with
  | t :: ts, f :: fs =>
      match f_lift t f with
      | inr e => inr e
      | inl w => match lift_all ts fs with inl ws => inl (w :: ws) | inr e => inr e end
      end
  | _, _ => inl []
  end.
Definition make_call (m : mtype) (o : O) (name : str) (fs : list F) : list invocation * (W + exn) :=
  match lift_all (m_args m) fs with
  | inr e => ([], inr e)
  | inl ws =>
      ([Invoke o name ws], match call o name ws with Returns w => inl w | Raises e => inr e end)
  end.

(** [write_return_value(make_call())]. *)
Definition call_and_write (m : mtype) (o : O) (name : str) (fs : list F) : list invocation * (F + exn) :=
  let (log, r) := make_call m o name fs in
  (log, match r with
        | inr e => inr e
        | inl w => match m_ret m with Some t => f_lower t w | None => inl unit_ffi end
        end).

Definition message (e : exn) : bytes :=
  match e with Other msg | Fatal msg => msg | Declared _ => S_ "declared error" end.

(** The answer for an exception.  Python: Helpers.py l.74-95; what is not caught there is printed and
    ignored by ctypes, and the status keeps what it has.  Kotlin: Helpers.kt l.95-130; an exception
    from [lowerError] is likewise ignored by JNA.  Swift: Helpers.swift l.115-146, where [lowerError]
    cannot throw. *)
Definition on_exception (l : lang) (m : mtype) (e : exn) : answer :=
  let unexpected e := Answer code_unexpected (message e) (a_ret (blank m)) in
  let declared x :=
    match f_lower_error x with
    | inl b => Answer code_error b (a_ret (blank m))
    | inr e' =>
        match l, e' with
        | Python, Fatal _ => Answer code_error [] (a_ret (blank m))
        | Python, _ => unexpected e'
        | _, _ => Answer code_error [] (a_ret (blank m))
        end
    end in
  match e with
  | Declared x => if m_throws m then declared x else unexpected e
  | Other _ => unexpected e
  | Fatal _ => match l with Python => blank m | _ => unexpected e end
  end.

(** The foreign function of a method: look the handle up, outside any handler in Python and Kotlin
    (CallbackInterfaceImpl.py l.22, CallbackInterfaceImpl.kt l.20) and inside in Swift
    (CallbackInterfaceImpl.swift l.52-55). *)
Definition foreign_method (l : lang) (map_ : Z -> option O) (m : mtype) (name : str) (h : Z)
    (fs : list F) : list invocation * answer :=
  match map_ h with
  | None =>
      ([], match l with Swift => on_exception l m (Other (S_ "stale handle")) | _ => blank m end)
  | Some o =>
      let (log, r) := call_and_write m o name fs in
      (log, match r with
            | inl f => Answer code_success [] f
            | inr e => on_exception l m e
            end)
  end.

(** What the Rust caller of the trait method sees. *)
Inductive rust_result := RValue (v : V) | RError (e : E) | RPanics.

(** uniffi_core/src/ffi_converter_traits.rs l.385-397 and ffi_converter_impls.rs l.631-633
    [handle_callback_unexpected_error]. *)
Definition unexpected (m : mtype) (reason : bytes) : rust_result :=
  if m_throws m then
    match from_unexpected with Some c => RError (c reason) | None => RPanics end
  else RPanics.

(** ffi_converter_traits.rs l.357-376 [lift_foreign_return], with ffi_converter_impls.rs l.616-629. *)
Definition lift_foreign_return (m : mtype) (a : answer) : rust_result :=
  if a_code a =? code_success then
    match m_ret m with
    | None => RValue unit_value
    | Some t => match r_lift t (a_ret a) with inl v => RValue v | inr msg => unexpected m msg end
    end
  else if a_code a =? code_error then
    if m_throws m then
      match r_lift_error (a_buf a) with
      | inl e => RError e
      | inr msg => unexpected m (S_ "Error lifting from rust buffer: " ++ msg)
      end
    else RPanics
  else unexpected m (a_buf a).

(** callback_interface.rs l.245-253: the Rust method with name [ident] of the proxy for handle [h].
    [types] are the methods' types by the name the foreign code uses. *)
Definition proxy_call (l : lang) (sigs : list sig) (vtable : list entry) (types : str -> mtype)
    (map_ : Z -> option O) (ident : str) (h : Z) (m : mtype) (vs : list V)
    : option (list invocation * rust_result) :=
  match position ident (rust_vtable sigs) with
  | None => None
  | Some k =>
      match nth_error vtable k with
      | Some (EMethod name) =>
          let fs := map (fun tv => r_lower (fst tv) (snd tv)) (combine (m_args m) vs) in
          let (log, a) := foreign_method l map_ (types name) name h fs in
          Some (log, lift_foreign_return m a)
      | _ => None
      end
  end.
End Calls.
Arguments exn : clear implicits.
Arguments outcome : clear implicits.
Arguments mtype : clear implicits.
Arguments invocation : clear implicits.
Arguments rust_result : clear implicits.
Arguments answer : clear implicits.

(** * The life of handles

    The foreign side passes objects as arguments that are callback interfaces; Rust lifts them one
    after the other, which makes a proxy for each; dropping a proxy calls [uniffi_free]
    (callback_interface.rs l.113-138, l.173-175).  Several arguments may be passed in one call; if
    another argument cannot be lifted, the ones already lifted are dropped and the others are not
    touched (fnsig.rs l.203-223). *)

Inductive event :=
| Passed (h : Z) (o : Z)          (* handle h was made for object o *)
| Freed (h : Z)                   (* uniffi_free was called and removed it *)
| Called (h : Z) (o : Z)          (* a method of the proxy for h ran on object o *)
| Stale (h : Z).                  (* an operation on a handle that is not in the map *)

Record state := mk { hmap : list (Z * Z); next : Z; proxies : list Z; log : list event }.
Definition init : state := mk [] 1 [] [].

Fixpoint find (h : Z) (m : list (Z * Z)) : option Z :=
  match m with [] => None | (k, o) :: m => if k =? h then Some o else find h m end.
Fixpoint del (h : Z) (m : list (Z * Z)) : list (Z * Z) :=
  match m with [] => [] | (k, o) :: m => if k =? h then m else (k, o) :: del h m end.

(** HandleMap.py l.17-26.  The counter does not wrap: 2^63 handles are out of reach. *)
Definition f_insert (o : Z) (s : state) : state :=
  mk ((next s, o) :: hmap s) (next s + 2) (proxies s) (Passed (next s) o :: log s).
Fixpoint f_insert_all (os : list Z) (s : state) : state * list Z :=
  match os with
  | [] => (s, [])
  | o :: os => let (s', hs) := f_insert_all os (f_insert o s) in (s', next s :: hs)
  end.

(** callback_interface.rs l.133-138, CallbackInterfaceImpl.py l.95-97. *)
Definition free (h : Z) (s : state) : state :=
  match find h (hmap s) with
  | Some _ => mk (del h (hmap s)) (next s) (proxies s) (Freed h :: log s)
  | None => mk (hmap s) (next s) (proxies s) (Stale h :: log s)
  end.
Fixpoint free_all (hs : list Z) (s : state) : state :=
  match hs with [] => s | h :: hs => free_all hs (free h s) end.

Definition call_on (h : Z) (s : state) : state :=
  mk (hmap s) (next s) (proxies s)
     (match find h (hmap s) with Some o => Called h o | None => Stale h end :: log s).

Fixpoint remove_nth (i : nat) (l : list Z) : list Z :=
  match l, i with [], _ => [] | _ :: l, O => l | x :: l, S i => x :: remove_nth i l end.

Inductive op :=
| Pass (os : list Z)                    (* the call takes the objects *)
| PassFails (os : list Z) (lifted : nat) (* only so many of them are lifted *)
| CallProxy (i : nat)
| DropProxy (i : nat).

Definition step (s : state) (x : op) : state :=
  match x with
  | Pass os =>
      let (s', hs) := f_insert_all os s in mk (hmap s') (next s') (hs ++ proxies s') (log s')
  | PassFails os n => let (s', hs) := f_insert_all os s in free_all (firstn n hs) s'
  | CallProxy i =>
      match nth_error (proxies s) i with Some h => call_on h s | None => s end
  | DropProxy i =>
      match nth_error (proxies s) i with
      | Some h => free h (mk (hmap s) (next s) (remove_nth i (proxies s)) (log s))
      | None => s
      end
  end.
Definition run (xs : list op) : state := fold_left step xs init.
