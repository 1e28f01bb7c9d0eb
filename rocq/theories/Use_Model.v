(** Flattening of [use] declarations: uniffi_parse_rs/src/use_.rs.
    [None] is the error [SelfInvalid]. *)
From Verif Require Import Base Meta_Types Path_Types Use_Spec.

(** l.10-24: the items made of it. *)
Inductive made := MUse (v : vis) (p : path) (x : str) | MGlob (v : vis) (p : path).
(** l.36-96 [parse_use_recurse]; the loop over [UseTree::Path] is the first case. *)
Fixpoint flatten (v : vis) (cur : path) (t : tree) : option (list made) :=
  match t with
  | TPath x t => flatten v (Path (lead cur) (segs cur ++ [x])) t
  | TName x =>
      if bytes_eqb x (S_ "self") then
        match rev (segs cur) with
        | y :: _ => Some [MUse v cur y]
        | [] => None
        end
      else Some [MUse v (Path (lead cur) (segs cur ++ [x])) x]
  | TRename x y => Some [MUse v (Path (lead cur) (segs cur ++ [x])) y]
  | TStar => Some [MGlob v cur]
  | TGroup l =>
      (fix go l := match l with
       | [] => Some []
       | t :: l => match flatten v cur t with
                   | Some a => match go l with Some b => Some (a ++ b) | None => None end
                   | None => None
                   end
       end) l
  end.
(** l.26-34 [parse_use]. *)
Definition parse_use (v : vis) (leading : bool) (t : tree) : option (list made) :=
  flatten v (Path leading []) t.
