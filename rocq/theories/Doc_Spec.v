(** Documentation texts: lines, comments in Kotlin and Swift, long strings in Python.  Nothing here
    comes from /repo. *)
From Verif Require Import Base Meta_Types Lit_Spec.

Definition LF : byte := x0a.
(** Lines put together again. *)
Fixpoint join (ls : list bytes) : bytes :=
  match ls with
  | [] => []
  | [l] => l
  | l :: r => l ++ LF :: join r
  end.
(** A line: no line ends inside. *)
Definition line (l : bytes) : Prop := ~ In LF l /\ ~ In x0d l.
Definition is_ws (c : byte) : bool := existsb (byte_eqb c) [x20; x09; x0a; x0b; x0c; x0d].
Definition blank (l : bytes) : bool := forallb is_ws l.

(** [ls'] are the lines [ls] moved to the left together; blank lines are empty. *)
Definition dedented (ls ls' : list bytes) : Prop :=
  exists p, blank p = true /\
    Forall2 (fun l l' => if blank l then l' = [] else l = p ++ l') ls ls'.

(** * Comments *)

(** Kotlin and Swift: comments nest.  What follows a comment of which [d] levels are open. *)
Fixpoint closes (d : nat) (s : bytes) : option bytes :=
  match s with
  | [] => None
  | c :: r =>
      match r with
      | [] => None
      | e :: r' =>
          if byte_eqb c x2a && byte_eqb e x2f then
            match d with S (S d') => closes (S d') r' | _ => Some r' end
          else if byte_eqb c x2f && byte_eqb e x2a then closes (S d) r'
          else closes d r
      end
  end.
(** What follows the comment at the start of a text. *)
Definition after_comment (s : bytes) : option bytes :=
  match strip (S_ "/*") s with Some r => closes 1 r | None => None end.

(** What a reader of the comment sees: the lines between the first and the last, without the
    decoration. *)
Fixpoint drop_ws (s : bytes) : bytes :=
  match s with [] => [] | c :: r => if is_ws c then drop_ws r else s end.
Definition undecorated (l : bytes) : bytes :=
  match strip [x2a] (drop_ws l) with
  | Some r => match strip [x20] r with Some r' => r' | None => r end
  | None => drop_ws l
  end.
Fixpoint split_lines (s : bytes) : list bytes :=
  match s with
  | [] => [[]]
  | c :: r =>
      if byte_eqb c LF then [] :: split_lines r
      else match split_lines r with l :: ls => (c :: l) :: ls | [] => [[c]] end
  end.
Definition comment_lines (s : bytes) : list bytes :=
  map undecorated (removelast (tl (split_lines s))).

(** Stars and slashes next to each other are kept apart by a backslash. *)
Fixpoint guarded (s : bytes) : bytes :=
  match s with
  | [] => []
  | c :: r =>
      match r with
      | e :: _ =>
          if (byte_eqb c x2a && byte_eqb e x2f) || (byte_eqb c x2f && byte_eqb e x2a)
          then c :: x5c :: guarded r else c :: guarded r
      | [] => [c]
      end
  end.

(** * Python's long strings *)

Definition quotes : bytes := [x22; x22; x22].
(** What follows the string, given what follows its opening quotes. *)
Fixpoint after_string (s : bytes) : option bytes :=
  match strip quotes s with
  | Some r => Some r
  | None =>
      match s with
      | [] => None
      | c :: r =>
          if byte_eqb c x5c then match r with [] => None | _ :: r' => after_string r' end
          else after_string r
      end
  end.
(** Its value too. *)
Definition cons_to {A} (c : byte) (o : option (bytes * A)) : option (bytes * A) :=
  match o with Some (v, r) => Some (c :: v, r) | None => None end.
Fixpoint long_string (s : bytes) : option (bytes * bytes) :=
  match strip quotes s with
  | Some r => Some ([], r)
  | None =>
      match s with
      | [] => None
      | c :: r =>
          if existsb (byte_eqb c) [x0d; x00] then None
          else if byte_eqb c x5c then
            match r with
            | [] => None
            | e :: r1 =>
                if byte_eqb e x78 then
                  match r1 with
                  | a :: b :: r2 => match hex2 a b with Some h => cons_to h (long_string r2) | None => None end
                  | _ => None
                  end
                else if existsb (byte_eqb e) [x75; x55; x4e] then None
                else if byte_eqb e x0a then long_string r1
                else if existsb (byte_eqb e) [x5c; x27; x22] then cons_to e (long_string r1)
                else match simple_escape e with
                     | Some k => cons_to k (long_string r1)
                     | None => cons_to c (cons_to e (long_string r1))
                     end
            end
          else cons_to c (long_string r)
      end
  end.
Definition spaces (n : nat) : bytes := repeat x20 n.
(** A block of lines moved to the right. *)
Definition moved (n : nat) (l : bytes) : bytes := match l with [] => [] | _ => spaces n ++ l end.

(** * UDL's documentation lines *)

Definition udl_ws (c : byte) : bool := existsb (byte_eqb c) [x20; x09; x0a; x0d].
(** A line [/// text], after white space. *)
Definition udl_line (w l : bytes) : bytes := w ++ S_ "///" ++ l ++ [LF].
(** What follows is something else. *)
Definition no_doc_next (s : bytes) : Prop :=
  exists w t, s = w ++ t /\ forallb udl_ws w = true /\ strip (S_ "///") t = None /\
    match t with c :: _ => udl_ws c = false | [] => True end.
(** A line without white space at its ends. *)
Definition tight (l : bytes) : Prop :=
  drop_ws l = l /\ drop_ws (rev l) = rev l.
