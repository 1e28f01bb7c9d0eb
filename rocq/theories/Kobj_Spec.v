(** * What the property about concurrent destruction talks about *)

From Verif Require Import Base Kobj_Model.

(** Schedules in which the object is never passed as an argument. *)
Definition no_pass (xs : list op) : Prop :=
  Forall (fun x => match x with Call _ Pass => False | _ => True end) xs.

Definition is_drop (e : event) : bool := match e with EDrop => true | _ => false end.
Definition drops (s : st) : nat := length (filter is_drop (log s)).

(** Clones taken and not yet released. *)
Definition is_clone (e : event) : bool := match e with EClone _ => true | _ => false end.
Definition is_release (e : event) : bool := match e with ERelease _ => true | _ => false end.
Definition in_use (l : list event) : Z :=
  Z.of_nat (length (filter is_clone l)) - Z.of_nat (length (filter is_release l)).

(** Does the event touch the Rust object? *)
Definition touches (e : event) : Prop :=
  match e with EClone _ | EUse _ | ERelease _ | EBad _ | EFree => True | _ => False end.

(** Newest first: the destructor runs only when no call is using the object, and
    nothing touches the object afterwards. *)
Definition well_ordered (l : list event) : Prop :=
  forall later earlier, l = later ++ EDrop :: earlier ->
    in_use earlier = 0%Z /\ forall e, In e later -> ~ touches e.

Definition all_idle (s : st) : Prop := forall p, In p (ths s) -> p = Idle.

(** Only steps of the calls in progress. *)
Definition only_go (xs : list op) : Prop := Forall (fun x => match x with Go _ => True | _ => False end) xs.
