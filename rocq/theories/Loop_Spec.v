(** * What the property about the foreign loop talks about *)

From Verif Require Import Base Async_Model Async_Spec Loop_Model.

Definition freachable (s : fst) : Prop := exists os, frun finit os = Some s.

Definition frees (l : list fev) : nat := length (filter (fun e => match e with FFree => true | _ => false end) l).
Definition completes (l : list fev) : nat := length (filter (fun e => match e with FComplete => true | _ => false end) l).

(** The loop uses the future as it should (newest event first): nothing after free; complete
    directly after being resumed with "ready"; every resumption belongs to a poll before it
    and is not repeated; no misuse. *)
Fixpoint orderly (l : list fev) : Prop :=
  match l with
  | [] => True
  | e :: l' =>
      orderly l' /\ frees l' = 0 /\
      match e with
      | FPoll h => completes l' = 0 /\ ~ In (FPoll h) l'
      | FResume h c => In (FPoll h) l' /\ ~ (exists c', In (FResume h c') l') /\ completes l' = 0
      | FComplete => completes l' = 0 /\ exists h l'', l' = FResume h CReady :: l''
      | FFree => completes l' = 1 \/ (exists l'', l' = FCancelled :: l'') \/ (exists l'', l' = FRaised :: l'')
      | FCancelled | FRaised => completes l' = 0
      | FUseAfterFree => False
      | FBadHandle _ => False
      end
  end.

(** Nothing is left to do: calls have returned, posted callbacks have run. *)
Definition settled (s : fst) : Prop := quiescent (rust s) /\ queue s = [].
