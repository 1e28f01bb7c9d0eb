(** Types as they are written in Rust sources, and what the items of sources say about types.
    Simplifications: generic arguments only on the last name of a path (others are errors, types.rs
    l.535-539); identifiers are without [r#]. *)
From Verif Require Import Base Meta_Types Path_Types.

Inductive sty :=
| SPath (p : path) (args : list garg)       (* [a::b<…>], [Self] *)
| SRef (mutable : bool) (t : sty)
| SSlice (t : sty)
| SUnit
| SParen (t : sty)
| SDyn (bounds : list path)                 (* [dyn A + B], lifetimes left out *)
| SOther                                    (* tuples, arrays, functions, … *)
with garg :=
| GType (t : sty)
| GOther.                                   (* lifetimes and constants *)
(** A type alias: its type parameters with their defaults, and what it stands for. *)
Record alias_def := Alias { a_params : list (str * option sty); a_ty : sty }.
(** attrs/traits.rs l.22-26. *)
Inductive export := ECallback | ETrait (k : trait_kind).
(** What items of the sources say: aliases, the types behind custom types, UDL types, exported traits. *)
Record world := World {
  w_ir : ir;
  w_alias : item -> alias_def;
  w_custom : item -> sty;
  w_udl : item -> ty;
  w_trait : item -> export }.
Definition ends_in_colons : str := S_ "::".
Fixpoint text (l : list str) : str :=
  match l with
  | [] => []
  | [x] => x
  | x :: l => x ++ ends_in_colons ++ text l
  end.
Fixpoint assoc {A} (l : list (str * A)) (x : str) : option A :=
  match l with
  | [] => None
  | (y, a) :: l => if bytes_eqb y x then Some a else assoc l x
  end.
