(** The hypotheses can be met, and the programs do what they are meant to. *)
From Verif Require Import Base Own_Model Own_Spec.
Require Import Coq.Sorting.Permutation.

Definition empty : heap := Heap 0 [].
(** Another call has a buffer with an object in it, and an object. *)
Definition busy : heap := Heap 9 [(7, CBuf [SRef 3; SData]); (3, CRef); (8, CRef)].
Example empty_tidy : tidy empty.
Proof. split; constructor. Qed.
Example busy_tidy : tidy busy.
Proof.
  split; cbn.
  - repeat constructor; cbn; intuition discriminate.
  - repeat constructor; cbn; unfold lt; repeat constructor.
Qed.

Definition list_of_objects : value := Packed [Plain; Object; Object].
Definition smooth_calls : list crossing :=
  [ToRust Python EnumError None [Direct Object; list_of_objects; Direct Plain] (Returns list_of_objects);
   ToRust Kotlin EnumError None [list_of_objects] (Fails [Plain; Object]);
   ToRust Ruby ObjectError None [list_of_objects] (Fails [Object]);
   ToRust Swift NoError None [list_of_objects] (Panics true);
   ToRustAsync Swift NoError None Never [Direct Object] (Returns list_of_objects);
   ToForeign Kotlin true [list_of_objects; Direct Object] (Raises [Plain; Object]);
   ToForeign Python false [list_of_objects] Breaks;
   ToForeignAsync Ruby true Kept [list_of_objects] (Answers (Direct Object))].
Example smooth_calls_smooth : Forall smooth smooth_calls.
Proof.
  assert (all_of fine list_of_objects) as L by (repeat constructor; unfold fine; auto).
  assert (all_of fine (Direct Object)) as O' by (repeat constructor; unfold fine; auto).
  assert (all_of fine (Direct Plain)) as P by (repeat constructor; unfold fine; auto).
  unfold smooth_calls. repeat (apply Forall_cons); try apply Forall_nil; cbn [smooth body_fine deed_fine];
    repeat split; repeat (apply Forall_cons); try apply Forall_nil; auto; try (unfold fine; auto);
    unfold error_type_handled; auto.
Qed.
(** They do use the heap: 42 numbers are given away, and all is as before. *)
Example smooth_calls_run : history smooth_calls busy = (Val tt, Heap (9 + 42) (live busy)).
Proof. vm_compute. reflexivity. Qed.

(** What the exact counts are about. *)
Example unsendable : ~ all_of writable (Packed [Object; Unwritable; Object]).
Proof. intros H. inversion H as [|? ? _ H1]; subst. inversion H1 as [|? ? H2 _]; subst. now apply H2. Qed.
Example refused : ~ all_of readable (Packed [Object; Unreadable; Object]).
Proof. intros H. inversion H as [|? ? _ H1]; subst. inversion H1 as [|? ? H2 _]; subst. now apply H2. Qed.
Example refused_sendable : Forall (all_of writable)
  ([Direct Object] ++ Packed [Object; Unreadable; Object] :: [list_of_objects]).
Proof. repeat constructor; discriminate. Qed.
Example first_readable : Forall (all_of readable) [Direct Object].
Proof. repeat constructor; discriminate. Qed.

(** A string that cannot be encoded, after a list of two objects: 1 buffer and 3 references stay. *)
Example unsendable_run : exists h,
  call Python NoError None [list_of_objects; Packed [Object; Unwritable; Object]] (Panics true) empty = (Throw, h) /\
  buffers (live h) = 1 /\ references (live h) = 3.
Proof. eexists. vm_compute. repeat split. Qed.
Example refused_run : exists h,
  call Python NoError None [Direct Object; Packed [Object; Unreadable; Object]; list_of_objects] (Panics true) empty = (Throw, h) /\
  buffers (live h) = 1 /\ references (live h) = 3.
Proof. eexists. vm_compute. repeat split. Qed.
Example object_error_run : exists h, call Kotlin ObjectError None [] (Fails [Object]) empty = (Throw, h) /\
  live h = [(1, CBuf [SRef 0])].
Proof. eexists. vm_compute. repeat split. Qed.

(** The instrument notices wrong programs: a buffer freed twice, a handle used after it was freed. *)
Example freed_twice : fst ((do b <- new (CBuf []); run take_buf b; take_buf b) empty) = Bad.
Proof. reflexivity. Qed.
Example lifted_twice : fst ((do f <- lower Python (Direct Object); run rust_lift f; rust_lift f) empty) = Bad.
Proof. reflexivity. Qed.
Example not_sound : ~ sound (do b <- new (CBuf []); run take_buf b; take_buf b).
Proof. intros H. destruct (H empty empty_tidy) as (o & h' & l & [= <- <-] & N & _). now apply N. Qed.
