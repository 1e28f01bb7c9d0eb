(** * What the properties of objects crossing the FFI talk about *)

From Verif Require Import Base Obj_Model.

Definition reachable (s : st) : Prop := exists os, run init os = Some s.

Definition b1 (b : bool) : nat := if b then 1 else 0.

Definition count (p : event -> bool) (l : list event) : nat := length (filter p l).

Definition news (id : Z) (s : st) : nat :=
  count (fun e => match e with ENew i => Z.eqb i id | _ => false end) (log s).
Definition drops (id : Z) (s : st) : nat :=
  count (fun e => match e with EDrop i => Z.eqb i id | _ => false end) (log s).

(** The Rust objects alive. *)
Definition alive (id : Z) (s : st) : nat :=
  length (filter (fun x => match fst (snd x) with CObj i => Z.eqb i id | _ => false end) (hp s)).

(** Whom the references in existence were made for: references of Rust code,
    foreign wrappers and handles on their way across the FFI. *)
Definition referenced (s : st) : list who :=
  map snd (roots s) ++ map snd (wraps s) ++ map t_who (to_f s) ++ map t_who (to_r s).

(** Newest event first: a Rust object that is used, reached by a lifted handle
    or dropped has been created more often than dropped before. *)
Fixpoint only_live (l : list event) : Prop :=
  match l with
  | [] => True
  | e :: l' =>
      match e with
      | EUse _ (Rust id) | EGot _ (Rust id) _ | EDrop id =>
          count (fun e => match e with EDrop i => Z.eqb i id | _ => false end) l'
          < count (fun e => match e with ENew i => Z.eqb i id | _ => false end) l'
      | _ => True
      end /\ only_live l'
  end.
