(** What it means that nothing is left behind and nothing is released twice. *)
From Verif Require Import Base Own_Model.
Require Import Coq.Sorting.Permutation.

Definition writable (p : part) : Prop := p <> Unwritable.
Definition readable (p : part) : Prop := p <> Unreadable.
(** A part that both sides convert. *)
Definition fine (p : part) : Prop := p = Plain \/ p = Object.
Definition parts (v : value) : list part := match v with Direct p => [p] | Packed ps => ps end.
Definition all_of (P : part -> Prop) (v : value) : Prop := Forall P (parts v).

(** The objects among some parts, the ones before the first part that cannot be written and the ones
    after the first that cannot be read. *)
Fixpoint objects (ps : list part) : nat :=
  match ps with
  | [] => 0
  | Object :: ps' => S (objects ps')
  | _ :: ps' => objects ps'
  end.
Fixpoint until_unwritable (ps : list part) : list part :=
  match ps with
  | [] | Unwritable :: _ => []
  | p :: ps' => p :: until_unwritable ps'
  end.
Fixpoint after_unreadable (ps : list part) : list part :=
  match ps with
  | [] => []
  | Unreadable :: ps' => ps'
  | _ :: ps' => after_unreadable ps'
  end.

(** The buffers and references that passing values takes. *)
Definition buffers_of (v : value) : nat := match v with Direct _ => 0 | Packed _ => 1 end.
Definition objects_of (v : value) : nat := objects (parts v).
Fixpoint total (f : value -> nat) (vs : list value) : nat :=
  match vs with [] => 0 | v :: vs' => f v + total f vs' end.

(** The buffers and references among what is alive. *)
Fixpoint buffers (l : list (nat * cell)) : nat :=
  match l with
  | [] => 0
  | (_, CBuf _) :: l' => S (buffers l')
  | (_, CRef) :: l' => buffers l'
  end.
Fixpoint references (l : list (nat * cell)) : nat :=
  match l with
  | [] => 0
  | (_, CRef) :: l' => S (references l')
  | (_, CBuf _) :: l' => references l'
  end.

(** Nothing has the same number twice, and new numbers are new. *)
Definition tidy (h : heap) : Prop :=
  NoDup (map fst (live h)) /\ Forall (fun x => fst x < next h) (live h).

(** Whatever is alive before, for other calls: the program releases and uses only what is alive, and
    what was alive before is alive afterwards. *)
Definition sound {A} (m : M A) : Prop :=
  forall h, tidy h ->
  exists o h' left, m h = (o, h') /\ o <> Bad /\ tidy h' /\ Permutation (live h') (left ++ live h).

(** It leaves exactly so many buffers and references behind, that nobody releases any more. *)
Definition leaves {A} (m : M A) (b r : nat) : Prop :=
  forall h, tidy h ->
  exists o h' left, m h = (o, h') /\ o <> Bad /\ o <> Trap /\ tidy h' /\
    Permutation (live h') (left ++ live h) /\ buffers left = b /\ references left = r.

(** After it exactly that is alive that was before. *)
Definition clean {A} (m : M A) : Prop :=
  forall h, tidy h ->
  exists o h', m h = (o, h') /\ o <> Bad /\ o <> Trap /\ tidy h' /\ Permutation (live h') (live h).

(** It ends the process. *)
Definition ends_process {A} (m : M A) : Prop := forall h, tidy h -> fst (m h) = Trap.

(** Kotlin and Swift read errors that are objects in another way. *)
Definition error_type_handled (L : lang) (decl : declared) : Prop :=
  decl = EnumError \/ (decl = ObjectError /\ (L = Python \/ L = Ruby)).

(** A Rust function that returns or fails with something that can be converted, or that panics. *)
Definition body_fine (L : lang) (decl : declared) (body : result) : Prop :=
  match body with
  | Returns v => all_of fine v
  | Fails e => Forall fine e /\ error_type_handled L decl
  | Panics _ => True
  end.
Definition deed_fine (d : deed) : Prop :=
  match d with
  | Answers v => all_of fine v
  | Raises e => Forall fine e
  | Breaks => True
  end.

(** A call in which all values can be converted, no task is interrupted and no future is dropped. *)
Definition smooth (c : crossing) : Prop :=
  match c with
  | ToRust L decl _ args body => Forall (all_of fine) args /\ body_fine L decl body
  | ToRustAsync L decl _ i args body => Forall (all_of fine) args /\ body_fine L decl body /\ i = Never
  | ToForeign _ _ args d => Forall (all_of fine) args /\ deed_fine d
  | ToForeignAsync _ _ w args d => Forall (all_of fine) args /\ deed_fine d /\ w = Kept
  end.
