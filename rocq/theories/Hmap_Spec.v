(** * What a history of a handle map must look like

    Everything is stated about the observable history alone, newest event
    first. *)

From Verif Require Import Base Hmap_Model.

(** Kotlin's counter is 64 bits wide: histories of fewer than 2^63 steps.  The
    other languages need no bound. *)
Definition reachable (k : lang) (s : st) : Prop :=
  exists xs, run k init xs = Some s /\ (k = Kotlin -> (Z.of_nat (length xs) < 2 ^ 63)%Z).

(** The object stored under a handle. *)
Fixpoint live (l : list event) (h : Z) : option obj :=
  match l with
  | [] => None
  | EPut _ k o :: l' => if Z.eqb k h then Some o else live l' h
  | ERem _ k (Some _) :: l' => if Z.eqb k h then None else live l' h
  | _ :: l' => live l' h
  end.

Definition puts (h : Z) (l : list event) : nat :=
  length (filter (fun e => match e with EPut _ k _ => Z.eqb k h | _ => false end) l).
Definition all_puts (l : list event) : nat :=
  length (filter (fun e => match e with EPut _ _ _ => true | _ => false end) l).
Definition removals (h : Z) (l : list event) : nat :=
  length (filter (fun e => match e with ERem _ k (Some _) => Z.eqb k h | _ => false end) l).
Definition all_removals (l : list event) : nat :=
  length (filter (fun e => match e with ERem _ _ (Some _) => true | _ => false end) l).

Definition thread (e : event) : nat :=
  match e with
  | ECall t _ | EPut t _ _ | ENew t _ | ERead t _ _ | EGot t _ _ | ERem t _ _ | EFail t | ESize t _ => t
  end.

(** The last thing thread [t] did. *)
Fixpoint last (t : nat) (l : list event) : option event :=
  match l with
  | [] => None
  | e :: l' => if Nat.eqb (thread e) t then Some e else last t l'
  end.

Definition returned (e : option event) : Prop :=
  match e with
  | None | Some (ENew _ _) | Some (EGot _ _ _) | Some (ERem _ _ _) | Some (EFail _) | Some (ESize _ _) => True
  | _ => False
  end.

(** What may happen after history [l]. *)
Definition allowed (e : event) (l : list event) : Prop :=
  match e with
  | ECall t _ => returned (last t l)
  | EPut t h o =>
      (* a fresh odd handle, for the object inserted or found by clone *)
      Z.odd h = true /\ puts h l = 0 /\
      (last t l = Some (ECall t (Insert o)) \/ exists h0, last t l = Some (ERead t h0 (Some o)))
  | ENew t h => exists o, last t l = Some (EPut t h o)
  | ERead t h r => last t l = Some (ECall t (Clone h)) /\ r = live l h
  | EGot t h r => last t l = Some (ECall t (Get h)) /\ r = live l h
  | ERem t h r => last t l = Some (ECall t (Remove h)) /\ r = live l h
  | EFail t => exists h, last t l = Some (ERead t h None)
  | ESize t n => last t l = Some (ECall t Size) /\ n + all_removals l = all_puts l
  end.

Fixpoint legal (l : list event) : Prop :=
  match l with
  | [] => True
  | e :: l' => allowed e l' /\ legal l'
  end.

(** A lookup of handle [h] that succeeds. *)
Definition looks (h : Z) (e : event) : Prop :=
  match e with EGot _ k r | ERem _ k r | ERead _ k r => k = h /\ r <> None | _ => False end.

(** No new calls, only steps of the calls in progress. *)
Definition only_go (xs : list op) : Prop := Forall (fun x => match x with Go _ => True | _ => False end) xs.
