(** * Calls that meet the hypotheses of the theorems *)

From Verif Require Import Base Buf_Model Buf_Spec Scaf_Model Scaf_Spec.

(** A function of two buffers that returns the concatenation in a buffer; it raises its
    declared error if the first is empty and panics if the second is. *)
Definition f : fn bytes bytes rbuf := {|
  fallible := true;
  body := fun vs => match vs with
                    | [[]; _] => FErr [x45]
                    | [_; []] => FPanics (Plain (KStr (lit "empty")))
                    | [a; b] => FRet (a ++ b)
                    | _ => FPanics (Plain KOther)
                    end;
  lower_ok := fun v h => let (h', b) := lower_string h v in (h', Done b);
  lower_error := fun e h => let (h', b) := lower_string h e in (h', Done b);
  dflt := null_buf |}.

(** Lifting refuses bytes starting with [xff] with an error of the declared type, and
    those starting with [xfe] with another one. *)
Definition reader (bs : bytes) : lres bytes bytes :=
  match bs with
  | xff :: _ => LErr (User [x55])
  | xfe :: _ => LErr (Other (lit "no"))
  | xfd :: _ => LPanic (Plain (KStr (lit "lift")))
  | _ => LOk bs
  end.

Definition given (a b : bytes) : world * list (arg bytes bytes) :=
  match run W64 world0 [Lower a 0; Lower b 3; Lower [x09] 0] with
  | Some (s, _) =>
      match held s with
      | b1 :: b2 :: _ => (s, [buf_arg W64 (lit "a") reader b1; buf_arg W64 (lit "b") reader b2])
      | _ => (s, [])
      end
  | None => (world0, [])
  end.

Definition seen (a b : bytes) (st : status) : option (outcome bytes) :=
  let (s, args) := given a b in
  match scaffold (fun e => e) f args st (hp s) with
  | (h', Returned st' r) =>
      Some (match check_status h' st' r with
            | Value v => Value (contents h' v)
            | DeclaredError e => DeclaredError e
            | Unexpected m => Unexpected m
            | InvalidCode => InvalidCode
            end)
  | (_, Unwound) => None
  end.

(** Every kind of outcome. *)
Example outcomes :
  seen [x01] [x02; x03] fresh = Some (Value [x01; x02; x03]) /\
  seen [] [x02] fresh = Some (DeclaredError [x45]) /\
  seen [x01] [] fresh = Some (Unexpected (lit "empty")) /\
  seen [xff] [x02] fresh = Some (DeclaredError [x55]) /\
  seen [x01] [xfe] fresh = Some (Unexpected (failed_message (lit "b") (lit "no"))) /\
  seen [x01] [xfd] fresh = Some (Unexpected (lit "lift")).
Proof. vm_compute. auto 10. Qed.

(** The hypotheses of the theorems: all arguments lift... *)
Example all_lift : let (s, args) := given [x01] [x02; x03] in
  exists h1, lifts args (hp s) [[x01]; [x02; x03]] h1 /\ gentle f [[x01]; [x02; x03]] h1 /\
  exists h2 r, produces f [[x01]; [x02; x03]] h1 (Value r) /\ lower_ok f [x01; x02; x03] h1 = (h2, Done r) /\ contents h2 r = [x01; x02; x03].
Proof.
  vm_compute given. eexists. split.
  - econstructor; [vm_compute; reflexivity|]. econstructor; [vm_compute; reflexivity|]. constructor.
  - split.
    + split; [discriminate|]. split; [|discriminate]. intros v h' p [= <-]. unfold f, lower_ok. destruct (lower_string _ _). discriminate.
    + do 2 eexists. split; [eapply p_value; [reflexivity|vm_compute; reflexivity]|]. split; [vm_compute; reflexivity|]. vm_compute. reflexivity.
Qed.

(** ...or the second does not. *)
Example second_fails : let (s, args) := given [x01] [xfe] in
  exists a h2, first_failure args (hp s) a h2 (LErr (Other (lit "no"))) /\ aname a = lit "b" /\
    reported_as (fun e => e) f (aname a) h2 (LErr (Other (lit "no"))) (Unexpected (failed_message (lit "b") (lit "no"))).
Proof.
  vm_compute given. do 2 eexists. split.
  - split; [discriminate|]. match goal with |- context [[?p; ?q] = _] => exists [p], [] end. do 2 eexists. split; [reflexivity|]. split.
    + econstructor; [vm_compute; reflexivity|constructor].
    + vm_compute. reflexivity.
  - split; [reflexivity|]. constructor.
Qed.

(** The refutations: a stale status hides a value; a lift that panics in an asynchronous
    function; a payload that panics twice. *)
Example stale : seen [x01] [x02; x03] (ST Error null_buf) = Some (DeclaredError []).
Proof. vm_compute. reflexivity. Qed.

Example async_lift_panics : let (s, args) := given [x01] [xfd] in exists h1, lift_args args (hp s) = (h1, LiftPanics (Plain (KStr (lit "lift")))).
Proof. vm_compute given. eexists. vm_compute. reflexivity. Qed.

Definition bomber : fn bytes bytes unit :=
  Fn false (fun _ => FPanics (Bomb KOther (Bomb KOther (Plain KOther)))) (fun _ h => (h, Done tt)) (fun _ h => (h, Done null_buf)) tt.
Example bomb : lifts (E := bytes) [] heap0 ([] : list bytes) heap0 /\ body bomber [] = FPanics (Bomb KOther (Bomb KOther (Plain KOther))).
Proof. split; [constructor|reflexivity]. Qed.

(** Asynchronously the same outcomes come about. *)
Example async_outcomes : let (s, args) := given [x01] [xfe] in
  (forall h1 p, lift_args args (hp s) <> (h1, LiftPanics p)) /\
  exists h st r, scaffold_async (fun e => e) f args fresh (hp s) = (h, Returned st r) /\
    check_status h st r = Unexpected (failed_message (lit "b") (lit "no")).
Proof. vm_compute given. split; [vm_compute; discriminate|]. do 3 eexists. split; vm_compute; reflexivity. Qed.
