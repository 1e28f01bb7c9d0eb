(** When do a Rust value and a Swift value mean the same thing?  Nothing here
    mentions a reader or a writer. *)
From Verif Require Import Base Utf8 Wire_Model Wire_Spec Fgn_Spec Swf_Model.
Local Open Scope Z_scope.

(** What an instant and a duration (nanoseconds in Rust; doubles in units of
    2^-1074 seconds in Swift) have to do with each other. *)
Record clock := { m_time : Z -> Z -> Prop; m_dur : Z -> Z -> Prop }.

(** [same R E t v s]: the Rust value [v] and the Swift value [s] are the same
    value of type [t].  Boxes and custom types without a configuration are
    invisible in Swift; [Vec<u8>] is [Data]; [Some(None)] and [None] stay apart. *)
Inductive same (R : clock) (E : env) : ty -> val -> sval -> Prop :=
| s_int sg w z : same R E (TInt sg w) (VInt z) (SInt z)
| s_float d z : same R E (TFloat d) (VFloat z) (SFloat z)
| s_bool b : same R E TBool (VBool b) (SBool b)
| s_str s : same R E TString (VStr s) (SStr s)
| s_time t x : m_time R t x -> same R E TTimestamp (VTime t) (SDate x)
| s_dur t x : m_dur R t x -> same R E TDuration (VDur t) (SInterval x)
| s_none t : same R E (TOption t) VNone SNil
| s_some t v s : same R E t v s -> same R E (TOption t) (VSome v) (SSome s)
| s_box t v s : same R E t v s -> same R E (TBox t) (VBox v) s
| s_bytes bs :
    same R E (TVec (TInt false W8)) (VSeq (map (fun b => VInt (Z.of_N (b2n b))) bs)) (SData bs)
| s_seq t vs ss :
    t <> TInt false W8 -> Forall2 (same R E t) vs ss -> same R E (TVec t) (VSeq vs) (SArr ss)
| s_map tk tv kvs skvs :
    Forall2 (fun p q => same R E tk (fst p) (fst q)) kvs skvs ->
    Forall2 (fun p q => same R E tv (snd p) (snd q)) kvs skvs ->
    same R E (TMap tk tv) (VMap kvs) (SDict skvs)
| s_set t vs ss :
    Forall2 (same R E t) vs ss -> same R E (TSet t) (VSet vs) (SSet ss)
| s_rec n ts vs ss :
    defs E n = Some (DRecord ts) -> sames R E ts vs ss ->
    same R E (TNamed n) (VRec vs) (SStruct ss)
| s_enum n ne variants i ts vs ss :
    defs E n = Some (DEnum ne variants) -> nth_error variants i = Some ts ->
    sames R E ts vs ss -> same R E (TNamed n) (VEnum i vs) (SCase i ss)
| s_flat n k r i msg :
    defs E n = Some (DFlat k r) -> same R E (TNamed n) (VFlat i msg) (SFlat i msg)
| s_obj n h : defs E n = Some DObject -> same R E (TNamed n) (VObj h) (SRef h)
| s_custom n b v s :
    defs E n = Some (DCustom b) -> same R E b v s -> same R E (TNamed n) (VCustom n v) s
with sames (R : clock) (E : env) : list ty -> list val -> list sval -> Prop :=
| ss_nil : sames R E [] [] []
| ss_cons t ts v vs s ss :
    same R E t v s -> sames R E ts vs ss -> sames R E (t :: ts) (v :: vs) (s :: ss).

(** * Clocks

    [x] units are [x / one] seconds: [x * 10^9 / one] nanoseconds.  A [Date]
    counts from the start of 2001, which is 978307200 seconds after 1970. *)
Definition ns (x : Z) : Z := x * 1000000000.
Definition since1970 (x : Z) : Z := x + 978307200 * one.
Definition units (t : Z) : Z := t * one.

(** From Rust to Swift: a duration is off by at most one part in 2^51, an instant
    by at most one part in 2^51 of its distance from 1970 plus 31 years. *)
Definition to_swift : clock := {|
  m_time := fun t x =>
    2 ^ 51 * Z.abs (ns (since1970 x) - units t) <= units (Z.abs t + 978307200 * 1000000000);
  m_dur := fun t x => 2 ^ 51 * Z.abs (ns x - units t) <= units t |}.

(** From Swift to Rust: a duration loses less than a nanosecond and gains less
    than 2^-22 of one; an instant is off by less than a nanosecond and one part in
    2^51 of its distance from 1970. *)
Definition from_swift : clock := {|
  m_time := fun t x =>
    2 ^ 51 * (Z.abs (ns (since1970 x) - units t) - units 1) < ns (Z.abs (since1970 x));
  m_dur := fun t x => - units 1 < 2 ^ 22 * (ns x - units t) /\ ns x - units t < units 1 |}.

(** Both sides hold the same whole number of seconds, at most 2^52 of them. *)
Definition exactly : clock := {|
  m_time := fun t x => exists s, - 2 ^ 52 <= s <= 2 ^ 52 /\ t = ns s /\ since1970 x = units s;
  m_dur := fun t x => exists s, 0 <= s <= 2 ^ 52 /\ t = ns s /\ x = units s |}.

(** * Values *)

(** A finite double: at most 53 significant bits. *)
Definition double (x : Z) : Prop :=
  exists m e, 0 <= e /\ Z.abs m <= 2 ^ 53 /\ x = m * 2 ^ e.

(** All the Swift values inside a Swift value, itself included. *)
Fixpoint ssubs (s : sval) : list sval :=
  s :: match s with
       | SSome s' => ssubs s'
       | SArr l | SSet l | SStruct l | SCase _ l => flat_map ssubs l
       | SDict l => flat_map (fun p => ssubs (fst p) ++ ssubs (snd p)) l
       | _ => []
       end.

(** A value that a Swift program can hold: strings are UTF-8, dates and intervals
    are doubles, and a dictionary has no two keys that Swift takes for equal.
    Left out: flat errors, which do not travel to Rust as values, and dates
    strictly inside the second before 1970 (see C06). *)
Definition held (W : swift) (s : sval) : Prop :=
  forall u, In u (ssubs s) ->
  match u with
  | SStr b => utf8_valid b = true
  | SDate x => double x /\ ~ (- one < since1970 x < 0)
  | SInterval x => double x
  | SDict l => NoDup (map (norm W) (map fst l))
  | SSet l => NoDup (map (norm W) l)
  | SFlat _ _ => False
  | _ => True
  end.

(** Keys without floats, instants, durations, maps, sets or objects. *)
Definition plain_key (E : env) (k : ty) : Prop :=
  forall u, uses E k u ->
  match u with
  | TFloat _ | TTimestamp | TDuration | TMap _ _ | TSet _ => False
  | TNamed n => defs E n <> Some DObject
  | _ => True
  end.
Definition plain_keys (E : env) (t : ty) : Prop := key_types E (plain_key E) t.

(** A Rust value with each string replaced by its canonical form. *)
Fixpoint canonical (c : bytes -> bytes) (v : val) : val :=
  match v with
  | VStr s => VStr (c s)
  | VSome v' => VSome (canonical c v')
  | VBox v' => VBox (canonical c v')
  | VSeq vs => VSeq (map (canonical c) vs)
  | VMap kvs => VMap (map (fun p => (canonical c (fst p), canonical c (snd p))) kvs)
  | VSet vs => VSet (map (canonical c) vs)
  | VRec vs => VRec (map (canonical c) vs)
  | VEnum i vs => VEnum i (map (canonical c) vs)
  | VFlat i m => VFlat i (c m)
  | VCustom n v' => VCustom n (canonical c v')
  | _ => v
  end.

(** No map or set in [v] has two keys that differ only by strings that are
    canonically equivalent. *)
Definition apart (W : swift) (v : val) : Prop :=
  forall u, In u (subvals v) ->
  match u with
  | VMap kvs => NoDup (map (canonical (canon W)) (map fst kvs))
  | VSet vs => NoDup (map (canonical (canon W)) vs)
  | _ => True
  end.

(** The instants and durations in [v] are whole numbers of seconds, at most 2^52
    of them. *)
Definition whole (v : val) : Prop :=
  forall t, In (VTime t) (subvals v) \/ In (VDur t) (subvals v) ->
  exists s, - 2 ^ 52 <= s <= 2 ^ 52 /\ t = ns s.

(** Swift reads [s] from [bs], whatever follows, given stack for [n] nested
    calls. *)
Definition swift_reads (W : swift) (E : env) (t : ty) (n : nat) (bs : bytes) (s : sval) : Prop :=
  forall d rest, (n <= d)%nat -> sread W E d t (bs ++ rest) = Ok (s, rest).
