(** Proof that programs made of calls between Kotlin and Rust run as they should. *)
From Verif Require Import Jcall_Model Jcall_Spec Jcall_Proofs.
From Coq Require Import List ZArith String Bool Lia.
Import ListNotations.
Open Scope string_scope.
Open Scope list_scope.
Open Scope Z_scope.

Section vm.
Variable faults : nat -> jni_fn -> fault.
Variable message_of : exc -> option string.
Variable unexpected : string -> Z.
Hypothesis H : healthy faults.

(** The code has run and left this exception. *)
Definition left_ {A} (m : M A) (s : st) (o : out A) (x : option exc) (l : list Z) : Prop :=
  exists s', m s = (o, s') /\ pend s' = x /\ null_class s' = false /\ frames s' = frames s /\ objs s' = l.

Lemma ran_left : forall A (m : M A) s o l, ran m s o l -> left_ m s o None l.
Proof. intros A m s o l (s1 & E & [P N] & F & L). exists s1. repeat split; assumption. Qed.

Lemma left_bind : forall A B (m : M A) (k : A -> M B) s a l o x l',
  ran m s (Done a) l ->
  (forall s', ready s' -> frames s' = frames s -> objs s' = l -> left_ (k a) s' o x l') ->
  left_ (bind m k) s o x l'.
Proof.
  intros A B m k s a l o x l' (s1 & E & R & F & L) K.
  destruct (K s1 R F L) as (s2 & E2 & P2 & N2 & F2 & L2).
  exists s2. unfold bind. rewrite E. repeat split; congruence.
Qed.
Lemma left_try : forall A B (m : M (result A)) (k : A -> M (result B)) s a l o x l',
  ran m s (Done (Okay a)) l ->
  (forall s', ready s' -> frames s' = frames s -> objs s' = l -> left_ (k a) s' o x l') ->
  left_ (try_ m k) s o x l'.
Proof. intros A B m k s a l o x l' T K. unfold try_. apply (left_bind _ _ _ _ _ _ _ _ _ _ T). exact K. Qed.

(** What a native method makes of the outcome of its closure: a value or an exception. *)
Lemma with_env_left : forall A (f : M (result (option A))) s v x l, left_ f s (Done (Okay v)) x l ->
  left_ (rust_call_with_env faults f) s (Done v) x l.
Proof.
  intros A f s v x l (s1 & E & T). exists s1. unfold rust_call_with_env, rust_call. rewrite E. split; [reflexivity | exact T].
Qed.
Lemma with_env_ran : forall A (f : M (result (option A))) s o l, ready s -> ran f s o l ->
  exists s', rust_call_with_env faults f s =
      ((match o with Done (Okay v) => Done v | Crashed c => Crashed c | _ => Done None end), s') /\
    pend s' = match o with
              | Done (Error e) => Some (Internal e)
              | Unwinds w => Some (Internal ("Rust panic: " ++ w))
              | _ => None
              end /\ null_class s' = false /\ frames s' = frames s /\ objs s' = l.
Proof.
  intros A f s o l R (s1 & E & R1 & F1 & L1). unfold rust_call_with_env, rust_call. rewrite E.
  destruct o as [[v | e] | w | c].
  - exists s1. split; [reflexivity|]. destruct R1. repeat split; assumption.
  - destruct (throw_internal_ran faults H e s1 R1) as (s2 & E2 & P2 & N2 & F2 & L2). rewrite E2.
    exists s2. split; [reflexivity|]. split; [exact P2|]. split; [exact N2|]. split; congruence.
  - destruct (throw_internal_ran faults H ("Rust panic: " ++ w)%string s1 R1) as (s2 & E2 & P2 & N2 & F2 & L2). rewrite E2.
    exists s2. split; [reflexivity|]. split; [exact P2|]. split; [exact N2|]. split; congruence.
  - exists s1. split; [reflexivity|]. destruct R1. repeat split; assumption.
Qed.

Lemma lift_kt_ran : forall b s, ready s ->
  ran (lift_kt b) s (Done (match b_fails b with None => inl (b_val b) | Some x => inr x end)) (objs s).
Proof. intros b s R. unfold lift_kt. destruct (b_fails b); apply ran_ret, R. Qed.

(** A value is lifted by Kotlin code. *)
Lemma lift_call_ran : forall A name b (k : Z -> M (result A)) s o l, ready s ->
  (b_fails b = None -> forall s', ready s' -> frames s' = frames s -> objs s' = objs s -> ran (k (b_val b)) s' o l) ->
  (forall x, b_fails b = Some x ->
     o = Done (Error ("Exception calling " ++ name ++ ": " ++ message message_of x)%string) /\ l = objs s) ->
  ran (bind (call_method faults (KLift name) (lift_kt b)) (fun r => try_ (to_anyhow faults message_of name r) k)) s o l.
Proof.
  intros A name b k s o l R K1 K2. destruct (b_fails b) as [x |] eqn:E.
  - destruct (K2 x eq_refl) as [-> ->].
    eapply (raised_bind _ _ _ _ _ x (objs s)).
    + apply call_method_raised; [exact H | exact R |]. intros s1 R1 F1 L1. rewrite <- L1.
      pose proof (lift_kt_ran b s1 R1) as T. rewrite E in T. exact T.
    + intros s1 P1 N1 F1 L1. apply ran_try_error. unfold to_anyhow.
      eapply clear_then; [exact H | exact P1 | exact N1 |]. intros s2 R2 F2 L2.
      eapply ran_bind; [apply get_message_ran; [exact H | exact R2]|]. intros s3 R3 F3 L3. cbv beta.
      replace (objs s) with (objs s3) by congruence. apply ran_ret, R3.
  - eapply ran_bind.
    + apply call_method_value; [exact H | exact R |]. intros s1 R1 F1 L1.
      pose proof (lift_kt_ran b s1 R1) as T. rewrite E, L1 in T. exact T.
    + intros s1 R1 F1 L1. eapply ran_try; [apply ran_ret; exact R1|]. intros s2 R2 F2 L2.
      apply K1; congruence || assumption || reflexivity.
Qed.

(** A lift that is followed by more code, which may leave an exception. *)
Lemma lift_call_left : forall A name b (k : Z -> M (result A)) s o x l, ready s -> b_fails b = None ->
  (forall s', ready s' -> frames s' = frames s -> objs s' = objs s -> left_ (k (b_val b)) s' o x l) ->
  left_ (bind (call_method faults (KLift name) (lift_kt b)) (fun r => try_ (to_anyhow faults message_of name r) k)) s o x l.
Proof.
  intros A name b k s o x l R E K. eapply left_bind.
  - apply call_method_value; [exact H | exact R |]. intros s1 R1 F1 L1.
    pose proof (lift_kt_ran b s1 R1) as T. rewrite E, L1 in T. exact T.
  - intros s1 R1 F1 L1. eapply left_try; [apply ran_ret; exact R1|]. intros s2 R2 F2 L2.
    apply K; congruence || assumption.
Qed.

(** What becomes of the result of a function. *)
Definition delivered (f : func) (e : rust_end) (m : M (result (option Z))) (s : st) : Prop :=
  (exists v, left_ m s (Done (Okay v)) None (objs s) /\ lift_result f (Some e) v = seen message_of f e) \/
  (exists z, left_ m s (Done (Okay None)) (Some (Declared z)) (objs s) /\ seen message_of f e = inr (Declared z)) \/
  (exists w, ran m s (Done (Error w)) (objs s) /\ seen message_of f e = inr (Internal w)) \/
  (exists w, ran m s (Unwinds w) (objs s) /\ seen message_of f e = inr (Internal ("Rust panic: " ++ w))).

Lemma lower_cases : forall A (l : list (leaf * conv)) (k : unit -> M (result A)) s, ready s ->
  (first_bad l = None /\ ran (lower_parts faults l) s (Done (Okay tt)) (objs s)) \/
  (exists w, first_bad l = Some (Refused w) /\ ran (try_ (lower_parts faults l) k) s (Done (Error w)) (objs s)) \/
  (exists w, first_bad l = Some (Panics w) /\ ran (try_ (lower_parts faults l) k) s (Unwinds w) (objs s)).
Proof.
  intros A l k s R. pose proof (lower_parts_ran faults H l s R) as T. unfold parts_end in T.
  destruct (first_bad l) as [c |] eqn:E.
  - destruct c as [| w | w].
    + exfalso. exact (first_bad_not_fine _ E).
    + right. left. exists w. split; [reflexivity | apply ran_try_error, T].
    + right. right. exists w. split; [reflexivity | apply ran_try_panic, T].
  - left. split; [reflexivity | exact T].
Qed.

Lemma send_value : forall f b e s, ready s ->
  (e = Returned b \/ e = Failed b /\ f_throws f = None) ->
  delivered f e (match f_ret f with
      | RVoid => ret (Okay (Some 0))
      | RPrim => try_ (lower_parts faults (b_parts b)) (fun _ => ret (Okay (Some (b_val b))))
      | RParts lift =>
          try_ (lower_parts faults (b_parts b)) (fun _ =>
          bind (call_method faults (KLift lift) (lift_kt b)) (fun r =>
          try_ (to_anyhow faults message_of lift r) (fun x => ret (Okay (Some x)))))
      end) s.
Proof.
  intros f b e s R C.
  assert (Q : seen message_of f e =
    match f_ret f with
      | RVoid => inl 0
      | RPrim =>
          match first_bad (b_parts b), e, b_fails b with
          | Some c, _, _ => inr (Internal (refusal c))
          | None, Returned _, Some x => inr x
          | None, _, _ => inl (b_val b)
          end
      | RParts lift =>
          match first_bad (b_parts b), b_fails b with
          | Some c, _ => inr (Internal (refusal c))
          | None, Some x => inr (Internal ("Exception calling " ++ lift ++ ": " ++ message message_of x))
          | None, None => inl (b_val b)
          end
      end).
  { destruct C as [-> | [-> T]]; cbn [seen]; [| rewrite T]; reflexivity. }
  unfold delivered. rewrite Q. unfold lift_result.
  destruct (f_ret f) as [| | lift].
  - left. exists (Some 0). split; [apply ran_left, ran_ret, R | reflexivity].
  - destruct (lower_cases _ (b_parts b) (fun _ => ret (Okay (Some (b_val b)))) s R) as [[E T] | [(w & E & T) | (w & E & T)]]; rewrite E.
    + left. exists (Some (b_val b)). split.
      * eapply left_try; [exact T|]. intros s1 R1 F1 L1. rewrite <- L1. apply ran_left, ran_ret, R1.
      * destruct C as [-> | [-> _]]; destruct (b_fails b); reflexivity.
    + right. right. left. exists w. split; [exact T | reflexivity].
    + right. right. right. exists w. split; [exact T | reflexivity].
  - match goal with |- context [try_ _ ?k] =>
      destruct (lower_cases _ (b_parts b) k s R) as [[E T] | [(w & E & T) | (w & E & T)]] end; rewrite E.
    + destruct (b_fails b) as [x |] eqn:X.
      * right. right. left. eexists. split; [| reflexivity].
        eapply ran_try; [exact T|]. intros s1 R1 F1 L1. rewrite <- L1.
        apply lift_call_ran; [exact R1 | intros K; congruence |].
        intros y Y. rewrite X in Y. injection Y as <-. split; reflexivity.
      * left. exists (Some (b_val b)). split; [| destruct C as [-> | [-> _]]; reflexivity].
        eapply left_try; [exact T|]. intros s1 R1 F1 L1. rewrite <- L1.
        apply lift_call_left; [exact R1 | exact X |]. intros s2 R2 F2 L2. rewrite <- L2. apply ran_left, ran_ret, R2.
    + right. right. left. exists w. split; [exact T | reflexivity].
    + right. right. right. exists w. split; [exact T | reflexivity].
Qed.

Lemma send_result_ran : forall f e s, ready s -> delivered f e (send_result faults message_of f e) s.
Proof.
  intros f e s R. destruct e as [b | b].
  - apply (send_value f b (Returned b) s R). left. reflexivity.
  - unfold send_result. destruct (f_throws f) as [lift |] eqn:Th.
    2: { apply (send_value f b (Failed b) s R). right. split; [reflexivity | exact Th]. }
    unfold delivered, seen. rewrite Th.
    match goal with |- context [try_ (lower_parts faults _) ?k] =>
      destruct (lower_cases _ (b_parts b) k s R) as [[E T] | [(w & E & T) | (w & E & T)]] end; rewrite E.
    + destruct (b_fails b) as [x |] eqn:X.
      * right. right. left. eexists. split; [| reflexivity].
        eapply ran_try; [exact T|]. intros s1 R1 F1 L1. rewrite <- L1.
        apply lift_call_ran; [exact R1 | intros K; congruence |].
        intros y Y. rewrite X in Y. injection Y as <-. split; reflexivity.
      * right. left. exists (b_val b). split; [| reflexivity].
        eapply left_try; [exact T|]. intros s1 R1 F1 L1. rewrite <- L1.
        apply lift_call_left; [exact R1 | exact X |]. intros s2 R2 F2 L2. rewrite <- L2.
        eapply left_bind; [apply jni_ran; [exact H | exact R2]|]. intros s3 R3 F3 L3. cbv iota.
        eexists. split; [reflexivity|]. cbn. split; [reflexivity|]. split; [exact (proj2 R3)|]. split; congruence.
    + right. right. left. exists w. split; [exact T | reflexivity].
    + right. right. right. exists w. split; [exact T | reflexivity].
Qed.

(** The Rust function does what [spec] says. *)
Definition follows (body : M rust_end) (spec : list Z -> rust_out * list Z) : Prop :=
  forall s, ready s -> let '(r, o) := spec (objs s) in
    ran body s (match r with inl e => Done e | inr w => Unwinds w end) o.

Lemma native_ran : forall f args body spec s, follows body spec -> ready s ->
  let '(r, o) := call_spec message_of f args spec (objs s) in
  ran (native faults message_of f args body) s (Done r) o.
Proof.
  intros f args body spec s B R. unfold call_spec. set (parts := flat_map p_parts args).
  set (objs1 := handles parts ++ objs s).
  pose (s1 := ST (pend s) (frames s) (attached s) (cache s) (null_class s) objs1 (clock s)).
  assert (R1 : ready s1) by exact R.
  pose (clo := h <-? lift_args faults args ;; e <- body ;; v <-? send_result faults message_of f e ;;
    ret (Okay (Some (Some e, v)))).
  assert (G : exists o x l,
    match o with
    | Done (Okay v) => left_ clo s1 o x l
    | Done (Error w) => ran clo s1 o l /\ x = Some (Internal w)
    | Unwinds w => ran clo s1 o l /\ x = Some (Internal ("Rust panic: " ++ w))
    | Crashed _ => False
    end /\
    (match first_bad parts with
     | Some c => (inr (Internal (refusal c)), release (rev (before_bad parts)) objs1)
     | None =>
         match spec objs1 with
         | (inr m, o) => (inr (Internal ("Rust panic: " ++ m)), o)
         | (inl e, o) => (seen message_of f e, o)
         end
     end) =
    (match x with
     | Some x => inr x
     | None => match o with Done (Okay (Some (e, v))) => lift_result f e v | _ => lift_result f None None end
     end, l)).
  { pose proof (lift_parts_ran faults H parts nil s1 R1) as L. unfold parts_end, lifted in L. rewrite app_nil_r in L.
    change (objs s1) with objs1 in L. destruct (first_bad parts) as [c |] eqn:E.
    - destruct c as [| w | w].
      + exfalso. exact (first_bad_not_fine _ E).
      + exists (Done (Error w)), (Some (Internal w)). eexists. split; [split; [| reflexivity] | reflexivity].
        apply ran_try_error, L.
      + exists (Unwinds w), (Some (Internal ("Rust panic: " ++ w))). eexists. split; [split; [| reflexivity] | reflexivity].
        apply ran_try_panic, L.
    - destruct L as (s2 & E2 & R2 & F2 & L2). specialize (B s2 R2). rewrite L2 in B.
      destruct (spec objs1) as [[e | w] o].
      + destruct B as (s3 & E3 & R3 & F3 & L3). destruct (send_result_ran f e s3 R3) as [(v & T & Q) | [(z & T & Q) | [(w & T & Q) | (w & T & Q)]]].
        * exists (Done (Okay (Some (Some e, v)))), None, o. split; [| rewrite Q; reflexivity].
          destruct T as (s4 & E4 & P4 & N4 & F4 & L4). exists s4.
          unfold clo, try_, bind. change (lift_args faults args) with (lift_parts faults parts nil).
          rewrite E2, E3, E4. repeat split; congruence.
        * exists (Done (Okay (Some (Some e, None)))), (Some (Declared z)), o. split; [| rewrite Q; reflexivity].
          destruct T as (s4 & E4 & P4 & N4 & F4 & L4). exists s4.
          unfold clo, try_, bind. change (lift_args faults args) with (lift_parts faults parts nil).
          rewrite E2, E3, E4. repeat split; congruence.
        * exists (Done (Error w)), (Some (Internal w)), o. split; [split; [| reflexivity] | rewrite Q; reflexivity].
          destruct T as (s4 & E4 & R4 & F4 & L4). exists s4.
          unfold clo, try_, bind. change (lift_args faults args) with (lift_parts faults parts nil).
          rewrite E2, E3, E4. destruct R4. repeat split; congruence.
        * exists (Unwinds w), (Some (Internal ("Rust panic: " ++ w))), o. split; [split; [| reflexivity] | rewrite Q; reflexivity].
          destruct T as (s4 & E4 & R4 & F4 & L4). exists s4.
          unfold clo, try_, bind. change (lift_args faults args) with (lift_parts faults parts nil).
          rewrite E2, E3, E4. destruct R4. repeat split; congruence.
      + destruct B as (s3 & E3 & R3 & F3 & L3).
        exists (Unwinds w), (Some (Internal ("Rust panic: " ++ w))), o. split; [split; [| reflexivity] | reflexivity].
        exists s3. unfold clo, try_, bind. change (lift_args faults args) with (lift_parts faults parts nil).
        rewrite E2, E3. destruct R3. repeat split; congruence. }
  destruct G as (o & x & l & G & Q). cbv zeta. rewrite Q. clear Q.
  assert (W : exists s2, rust_call_with_env faults clo s1 = (Done (match o with Done (Okay v) => v | _ => None end), s2) /\
    pend s2 = x /\ null_class s2 = false /\ frames s2 = frames s /\ objs s2 = l).
  { destruct o as [[v | w] | w | c].
    - destruct (with_env_left _ _ _ _ _ _ G) as (s2 & E2 & T). exists s2. split; [exact E2 | exact T].
    - destruct G as [G ->]. destruct (with_env_ran _ _ _ _ _ R1 G) as (s2 & E2 & T). exists s2. split; [exact E2 | exact T].
    - destruct G as [G ->]. destruct (with_env_ran _ _ _ _ _ R1 G) as (s2 & E2 & T). exists s2. split; [exact E2 | exact T].
    - destruct G. }
  destruct W as (s2 & E2 & P2 & N2 & F2 & L2).
  assert (N : native faults message_of f args body s =
    match rust_call_with_env faults clo s1 with
    | (Done r, s2) =>
        (bind (set_frames (frames s)) (fun _ => bind (look pend) (fun x =>
          match x with
          | Some x => bind (set_pend None) (fun _ => ret (inr x))
          | None => ret (match r with Some (e, v) => lift_result f e v | None => lift_result f None None end)
          end))) s2
    | (Unwinds w, s2) => (Unwinds w, s2)
    | (Crashed c, s2) => (Crashed c, s2)
    end) by reflexivity.
  unfold ran. rewrite N, E2. unfold bind, look, set_frames, ret. cbn [pend]. rewrite P2.
  destruct x as [x |].
  - eexists. split; [reflexivity|]. repeat split; assumption.
  - eexists. split.
    + repeat f_equal. destruct o as [[[[e v] |] | w] | w | c]; reflexivity.
    + repeat split; assumption.
Qed.

(** ** Methods implemented in Kotlin *)

Lemma quiet_bad : forall l c, quiet l -> first_bad l = Some c -> exists w, c = Refused w.
Proof.
  induction l as [| [k c'] l IH]; cbn [first_bad]; intros c Q E; [discriminate|].
  destruct c' as [| w | w].
  - apply IH; [| exact E]. intros p P. apply Q. right. exact P.
  - injection E as <-. exists w. reflexivity.
  - exfalso. exact (Q (k, Panics w) (or_introl eq_refl)).
Qed.

Lemma set_callback_fine : forall name p sl s, ready s -> first_bad (p_parts p) = None ->
  ran (set_callback faults name p sl) s (Done (inl sl)) (objs s).
Proof.
  intros name p sl s R E. pose proof (lift_parts_ran faults H (p_parts p) nil s R) as T. unfold parts_end in T. rewrite E in T.
  destruct T as (s1 & E1 & R1 & F1 & L1). exists s1. unfold set_callback, bind. rewrite E1. cbn [ret]. rewrite (proj1 R1).
  split; [reflexivity|]. split; [exact R1|]. split; assumption.
Qed.

Lemma set_callback_refused : forall name p sl s w, ready s -> first_bad (p_parts p) = Some (Refused w) ->
  ran (set_callback faults name p sl) s (Done (inr (Internal (name ++ " failed: " ++ w))))
    (release (rev (before_bad (p_parts p))) (objs s)).
Proof.
  intros name p sl s w R E. pose proof (lift_parts_ran faults H (p_parts p) nil s R) as T. unfold parts_end, lifted in T. rewrite E, app_nil_r in T.
  destruct T as (s1 & E1 & R1 & F1 & L1).
  destruct (throw_internal_ran faults H (name ++ " failed: " ++ w)%string s1 R1) as (s2 & E2 & P2 & N2 & F2 & L2).
  unfold ran, set_callback, bind. rewrite E1, E2. cbn [ret]. rewrite P2. cbn [look set_pend ret].
  eexists. split; [reflexivity|]. split; [split; [reflexivity | exact N2]|]. cbn. split; congruence.
Qed.

(** The Kotlin code does what [spec] says, and its result is quiet. *)
Definition quiet_end (e : kotlin_end) : Prop :=
  match e with KotlinReturned p | KotlinFailed p => quiet (p_parts p) | KotlinRaised _ => True end.
Definition obeys (impl : M kotlin_end) (spec : list Z -> kotlin_end * list Z) : Prop :=
  forall s, ready s -> let '(e, o) := spec (objs s) in quiet_end e /\ ran impl s (Done e) o.

(** The outcome of a call before unexpected errors are dealt with. *)
Definition raw (m : meth) (e : kotlin_end) (o : list Z) : (answer + string) * list Z :=
  let handed (p : passed) (a : answer) (prefix : string) :=
    match first_bad (p_parts p) with
    | Some c => (inr (prefix ++ refusal c)%string, release (rev (before_bad (p_parts p))) o)
    | None => (inl a, o)
    end in
  match e with
  | KotlinRaised x => (inr (message message_of x), o)
  | KotlinFailed p =>
      if m_throws m then handed p (Err (p_val p)) "uniffiSetCallbackReturn failed: "
      else (inr (message message_of (Declared (p_val p))), o)
  | KotlinReturned p =>
      match m_ret m with
      | RVoid => (inl (Value 0), o)
      | RPrim => handed p (Value (p_val p)) ""
      | RParts _ => handed p (Value (p_val p)) "uniffiSetCallbackReturn failed: "
      end
  end.
Definition raw_spec (m : meth) (h : Z) (args : list built) (impl : list Z -> kotlin_end * list Z) (objs : list Z)
  : (answer + string) * list Z :=
  match first_bad (flat_map b_parts args) with
  | Some c => (inr (refusal c), objs)
  | None =>
      if existsb (Z.eqb h) objs then
        match first_failing args with
        | Some x => (inr (message message_of x), objs)
        | None => let '(e, o) := impl objs in raw m e o
        end
      else (inr "HandleMap.get: Invalid handle", objs)
  end.

Definition sort_out (m : meth) (r : (answer + string) * list Z) : (answer + string) * list Z :=
  (match fst r with inl a => inl a | inr w => unexpected_end unexpected m w end, snd r).

Lemma spec_raw : forall m h args impl o,
  callback_spec message_of unexpected m h args impl o = sort_out m (raw_spec m h args impl o).
Proof.
  intros m h args impl o. unfold callback_spec, raw_spec, sort_out.
  destruct (first_bad (flat_map b_parts args)); [reflexivity|].
  destruct (existsb (Z.eqb h) o); [| reflexivity].
  destruct (first_failing args); [reflexivity|]. destruct (impl o) as [e o1].
  destruct e as [p | p | x]; cbn [answered raw]; [| | reflexivity].
  - destruct (m_ret m); [reflexivity | |]; (destruct (first_bad (p_parts p)); reflexivity).
  - destruct (m_throws m); [| reflexivity]. destruct (first_bad (p_parts p)); reflexivity.
Qed.

Lemma first_failing_find : forall args,
  match find (fun b => match b_fails b with Some _ => true | None => false end) args with
  | Some b => exists x, b_fails b = Some x /\ first_failing args = Some x
  | None => first_failing args = None
  end.
Proof.
  induction args as [| b l IH]; cbn [find first_failing]; [reflexivity|].
  destruct (b_fails b) as [x |] eqn:E; [exists x; split; [exact E | reflexivity] | exact IH].
Qed.

(** What the Kotlin function that dispatches gives. *)
Lemma dispatch_kt_raised : forall m h args impl spec s, obeys impl spec -> ready s ->
  (existsb (Z.eqb h) (objs s) = false ->
     ran (dispatch_kt faults m h args impl) s (Done (inr (Internal "HandleMap.get: Invalid handle"))) (objs s)) /\
  (existsb (Z.eqb h) (objs s) = true -> forall x, first_failing args = Some x ->
     ran (dispatch_kt faults m h args impl) s (Done (inr x)) (objs s)).
Proof.
  intros m h args impl spec s B R. unfold dispatch_kt. split.
  - intros E. apply get_then. rewrite E. apply ran_ret, R.
  - intros E x X. apply get_then. rewrite E. pose proof (first_failing_find args) as Q.
    destruct (find _ args) as [b |]; [| congruence]. destruct Q as (y & Y & Z0). rewrite Y.
    replace x with y by congruence. apply ran_ret, R.
Qed.

Definition kt_answer (m : meth) (e : kotlin_end) : (slot * option passed) + exc :=
  match e with
  | KotlinRaised x => inr x
  | KotlinFailed p =>
      if m_throws m then
        match first_bad (p_parts p) with
        | Some c => inr (Internal ("uniffiSetCallbackReturn failed: " ++ refusal c))
        | None => inl (HasError (p_val p), None)
        end
      else inr (Declared (p_val p))
  | KotlinReturned p =>
      match m_ret m with
      | RVoid => inl (Empty, None)
      | RPrim => inl (Empty, Some p)
      | RParts _ =>
          match first_bad (p_parts p) with
          | Some c => inr (Internal ("uniffiSetCallbackReturn failed: " ++ refusal c))
          | None => inl (HasValue (p_val p), None)
          end
      end
  end.
Definition kt_objs (m : meth) (e : kotlin_end) (o : list Z) : list Z :=
  let handed (p : passed) :=
    match first_bad (p_parts p) with Some _ => release (rev (before_bad (p_parts p))) o | None => o end in
  match e with
  | KotlinRaised x => o
  | KotlinFailed p => if m_throws m then handed p else o
  | KotlinReturned p => match m_ret m with RParts _ => handed p | _ => o end
  end.

Lemma dispatch_kt_ran : forall m h args impl spec s, obeys impl spec -> ready s ->
  existsb (Z.eqb h) (objs s) = true -> first_failing args = None ->
  let '(e, o) := spec (objs s) in
  quiet_end e /\ ran (dispatch_kt faults m h args impl) s (Done (kt_answer m e)) (kt_objs m e o).
Proof.
  intros m h args impl spec s B R E X. specialize (B s R). destruct (spec (objs s)) as [e o]. destruct B as [Q B].
  split; [exact Q|]. unfold dispatch_kt. apply get_then. rewrite E.
  pose proof (first_failing_find args) as Y. destruct (find _ args) as [b |].
  { destruct Y as (y & Y & Z0). congruence. }
  eapply ran_bind; [exact B|]. intros s1 R1 F1 L1.
  assert (S : forall p sl, quiet (p_parts p) ->
    ran (r <- set_callback faults "uniffiSetCallbackReturn" p sl ;;
         ret (match r with inl s => inl (s, None) | inr x => inr x end)) s1
      (Done (match first_bad (p_parts p) with
             | Some c => inr (Internal ("uniffiSetCallbackReturn failed: " ++ refusal c))
             | None => inl (sl, @None passed)
             end))
      (match first_bad (p_parts p) with Some _ => release (rev (before_bad (p_parts p))) o | None => o end)).
  { intros p sl Qp. destruct (first_bad (p_parts p)) as [c |] eqn:Eb.
    - destruct (quiet_bad _ _ Qp Eb) as [w ->].
      eapply ran_bind; [apply (set_callback_refused _ _ _ _ _ R1 Eb)|]. intros s2 R2 F2 L2. cbv iota.
      rewrite L1 in L2. rewrite <- L2. apply ran_ret, R2.
    - eapply ran_bind; [apply (set_callback_fine _ _ _ _ R1 Eb)|]. intros s2 R2 F2 L2. cbv iota.
      rewrite L1 in L2. rewrite <- L2. apply ran_ret, R2. }
  destruct e as [p | p | x]; cbn [kt_answer kt_objs].
  - destruct (m_ret m); [rewrite <- L1; apply ran_ret, R1 | rewrite <- L1; apply ran_ret, R1 | apply S, Q].
  - destruct (m_throws m); [apply S, Q | rewrite <- L1; apply ran_ret, R1].
  - rewrite <- L1. apply ran_ret, R1.
Qed.

(** The exception of a method is cleared and turned into an error. *)
Lemma handle_raised : forall A k (body : M (A + exc)) (f : A -> M (result answer)) x s l, ready s ->
  (forall s', ready s' -> frames s' = frames s -> objs s' = objs s -> ran body s' (Done (inr x)) l) ->
  ran (r <- call_method faults k body ;;
       match r with
       | inl a => f a
       | inr x => jni faults ExceptionClear ;;; set_pend None ;;; w <- get_message faults message_of x ;; ret (Error w)
       end) s (Done (Error (message message_of x))) l.
Proof.
  intros A k body f x s l R B. eapply (raised_bind _ _ _ _ _ x l).
  - apply call_method_raised; assumption.
  - intros s1 P1 N1 F1 L1. cbv iota. eapply clear_then; [exact H | exact P1 | exact N1 |]. intros s2 R2 F2 L2.
    eapply ran_bind; [apply get_message_ran; [exact H | exact R2]|]. intros s3 R3 F3 L3. cbv beta.
    replace l with (objs s3) by congruence. apply ran_ret, R3.
Qed.

Lemma dispatch_ran : forall m h args impl spec s, obeys impl spec -> ready s -> quiet (flat_map b_parts args) ->
  let '(r, o) := raw_spec m h args spec (objs s) in
  ran (dispatch faults message_of m h args impl) s
    (Done (match r with inl a => Okay a | inr w => Error w end)) o.
Proof.
  intros m h args impl spec s B R Q. destruct (raw_spec m h args spec (objs s)) as [r o] eqn:E.
  unfold dispatch. apply attach_ran; [exact H | exact R |]. intros s1 R1 L1. unfold raw_spec in E. rewrite <- L1 in E.
  pose proof (lower_args_ran faults H args s1 R1) as T. unfold parts_end in T.
  destruct (first_bad (flat_map b_parts args)) as [c |] eqn:Eb.
  { destruct (quiet_bad _ _ Q Eb) as [w ->]. injection E as <- <-. apply ran_try_error, T. }
  eapply ran_try; [exact T|]. clear T. intros s2 R2 F2 L2. rewrite <- L2 in E.
  destruct (existsb (Z.eqb h) (objs s2)) eqn:Eh.
  2: { injection E as <- <-.
       apply (handle_raised _ _ _ _ (Internal "HandleMap.get: Invalid handle") s2); [exact R2|].
       intros s3 R3 F3 L3. rewrite <- L3.
       apply (proj1 (dispatch_kt_raised m h args impl spec s3 B R3)). rewrite L3. exact Eh. }
  destruct (first_failing args) as [x |] eqn:Ef.
  { injection E as <- <-. apply handle_raised; [exact R2|]. intros s3 R3 F3 L3. rewrite <- L3.
    apply (proj2 (dispatch_kt_raised m h args impl spec s3 B R3)); [rewrite L3; exact Eh | exact Ef]. }
  assert (D : forall s', ready s' -> objs s' = objs s2 -> let '(e, o) := spec (objs s2) in
    quiet_end e /\ ran (dispatch_kt faults m h args impl) s' (Done (kt_answer m e)) (kt_objs m e o)).
  { intros s3 R3 L3. rewrite <- L3. apply dispatch_kt_ran; [exact B | exact R3 | rewrite L3; exact Eh | exact Ef]. }
  destruct (spec (objs s2)) as [e o1].
  assert (Qe : quiet_end e) by (destruct (D s2 R2 eq_refl) as [Qe _]; exact Qe).
  assert (D' : forall s', ready s' -> objs s' = objs s2 ->
    ran (dispatch_kt faults m h args impl) s' (Done (kt_answer m e)) (kt_objs m e o1)).
  { intros s' R' L'. exact (proj2 (D s' R' L')). }
  clear D. unfold raw in E.
  destruct e as [p | p | x]; cbn [kt_answer kt_objs quiet_end] in *.
  - destruct (m_ret m) eqn:Em.
    + injection E as <- <-. eapply ran_bind.
      * apply call_method_value; [exact H | exact R2 |]. intros s3 R3 F3 L3. apply D'; assumption.
      * intros s3 R3 F3 L3. cbv iota beta. rewrite <- L3. apply ran_ret, R3.
    + eapply ran_bind.
      * apply call_method_value; [exact H | exact R2 |]. intros s3 R3 F3 L3. apply D'; assumption.
      * intros s3 R3 F3 L3. cbv iota beta.
        pose proof (lift_parts_ran faults H (p_parts p) nil s3 R3) as T. unfold parts_end, lifted in T. rewrite app_nil_r, L3 in T.
        destruct (first_bad (p_parts p)) as [c |] eqn:Ep.
        -- destruct (quiet_bad _ _ Qe Ep) as [w ->]. injection E as <- <-. apply ran_try_error, T.
        -- injection E as <- <-. eapply ran_try; [exact T|]. intros s4 R4 F4 L4. rewrite <- L4. apply ran_ret, R4.
    + destruct (first_bad (p_parts p)) as [c |] eqn:Ep.
      * injection E as <- <-. apply (handle_raised _ _ _ _ (Internal ("uniffiSetCallbackReturn failed: " ++ refusal c)) s2); [exact R2|].
        intros s3 R3 F3 L3. apply D'; assumption.
      * injection E as <- <-. eapply ran_bind.
        -- apply call_method_value; [exact H | exact R2 |]. intros s3 R3 F3 L3. apply D'; assumption.
        -- intros s3 R3 F3 L3. cbv iota beta. rewrite <- L3. apply ran_ret, R3.
  - destruct (m_throws m) eqn:Em.
    + destruct (first_bad (p_parts p)) as [c |] eqn:Ep.
      * injection E as <- <-. apply (handle_raised _ _ _ _ (Internal ("uniffiSetCallbackReturn failed: " ++ refusal c)) s2); [exact R2|].
        intros s3 R3 F3 L3. apply D'; assumption.
      * injection E as <- <-. eapply ran_bind.
        -- apply call_method_value; [exact H | exact R2 |]. intros s3 R3 F3 L3. apply D'; assumption.
        -- intros s3 R3 F3 L3. cbv iota beta. rewrite <- L3. apply ran_ret, R3.
    + injection E as <- <-. apply (handle_raised _ _ _ _ (Declared (p_val p)) s2); [exact R2|]. intros s3 R3 F3 L3. apply D'; assumption.
  - injection E as <- <-. apply handle_raised; [exact R2|]. intros s3 R3 F3 L3. apply D'; assumption.
Qed.

Lemma callback_ran : forall m h args impl spec s, obeys impl spec -> ready s -> quiet (flat_map b_parts args) ->
  let '(r, o) := callback_spec message_of unexpected m h args spec (objs s) in
  ran (callback faults message_of unexpected m h args impl) s
    (match r with inl a => Done a | inr w => Unwinds w end) o.
Proof.
  intros m h args impl spec s B R Q. rewrite spec_raw. pose proof (dispatch_ran m h args impl spec s B R Q) as D.
  destruct (raw_spec m h args spec (objs s)) as [r o]. unfold sort_out. cbn [fst snd].
  unfold callback. eapply ran_bind; [exact D|]. intros s1 R1 F1 L1. rewrite <- L1.
  destruct r as [a | w]; [apply ran_ret, R1|]. unfold unexpected_end.
  destruct (m_throws m && m_unexpected m); [apply ran_ret, R1 | apply ran_panic, R1].
Qed.

(** ** Programs *)
Scheme rust_ind2 := Induction for rust Sort Prop with kotlin_ind2 := Induction for kotlin Sort Prop.
Combined Scheme programs_ind from rust_ind2, kotlin_ind2.

Lemma quiet_flat : forall args, (forall b, In b args -> quiet (b_parts b)) -> quiet (flat_map b_parts args).
Proof.
  intros args Q p P. apply in_flat_map in P. destruct P as (b & B & P). exact (Q b B p P).
Qed.

Lemma run_call_step : forall m h args impl held k,
  run_rust faults message_of unexpected (RCall m h args impl held k) = fun s =>
      match callback faults message_of unexpected m h args (run_kotlin faults message_of unexpected impl) s with
      | (Done a, s1) => run_rust faults message_of unexpected (k a) s1
      | (Unwinds w, s1) => unwind faults w held s1
      | (Crashed c, s1) => (Crashed c, s1)
      end.
Proof. reflexivity. Qed.
Lemma spec_call_step : forall m h args impl held k o,
  rust_spec message_of unexpected (RCall m h args impl held k) o =
      match callback_spec message_of unexpected m h args (kotlin_spec message_of unexpected impl) o with
      | (inl a, o) => rust_spec message_of unexpected (k a) o
      | (inr w, o) => (inr w, release held o)
      end.
Proof. reflexivity. Qed.
Lemma run_native_step : forall f args body k,
  run_kotlin faults message_of unexpected (KCall f args body k) =
    bind (native faults message_of f args (run_rust faults message_of unexpected body))
      (fun r => run_kotlin faults message_of unexpected (k r)).
Proof. reflexivity. Qed.
Lemma spec_native_step : forall f args body k o,
  kotlin_spec message_of unexpected (KCall f args body k) o =
    let '(r, o) := call_spec message_of f args (rust_spec message_of unexpected body) o in
    kotlin_spec message_of unexpected (k r) o.
Proof. reflexivity. Qed.

Lemma programs_ran :
  (forall r, calm_rust r -> follows (run_rust faults message_of unexpected r) (rust_spec message_of unexpected r)) /\
  (forall k, calm_kotlin k -> obeys (run_kotlin faults message_of unexpected k) (kotlin_spec message_of unexpected k)).
Proof.
  apply programs_ind.
  - intros e _ s R. cbn. apply ran_ret, R.
  - intros w held _ s R. cbn. apply unwind_ran; [exact H | exact R].
  - intros h k IH C s R. cbn [run_rust rust_spec]. specialize (IH C).
    destruct (drop_object_ran faults H h s R) as (s1 & E1 & R1 & F1 & L1). specialize (IH s1 R1). rewrite L1 in IH.
    destruct (rust_spec message_of unexpected k (release_one h (objs s))) as [r o].
    destruct IH as (s2 & E2 & R2 & F2 & L2). exists s2. unfold bind. rewrite E1, E2.
    split; [reflexivity|]. split; [exact R2|]. split; congruence.
  - intros m h args impl IHi held k IHk C s R. cbn in C. destruct C as (Q & Ci & Ck). rewrite run_call_step, spec_call_step.
    pose proof (callback_ran m h args (run_kotlin faults message_of unexpected impl)
      (kotlin_spec message_of unexpected impl) s (IHi Ci) R (quiet_flat _ Q)) as D.
    destruct (callback_spec message_of unexpected m h args (kotlin_spec message_of unexpected impl) (objs s)) as [[a | w] o].
    + destruct D as (s1 & E1 & R1 & F1 & L1). specialize (IHk a (Ck a) s1 R1). rewrite L1 in IHk.
      destruct (rust_spec message_of unexpected (k a) o) as [r o2].
      destruct IHk as (s2 & E2 & R2 & F2 & L2). exists s2. rewrite E1, E2.
      split; [reflexivity|]. split; [exact R2|]. split; congruence.
    + destruct D as (s1 & E1 & R1 & F1 & L1).
      destruct (unwind_ran faults H rust_end w held s1 R1) as (s2 & E2 & R2 & F2 & L2). exists s2. rewrite E1, E2.
      split; [reflexivity|]. split; [exact R2|]. split; [congruence | rewrite L2, L1; reflexivity].
  - intros e C s R. cbn. split; [destruct e; exact C | apply ran_ret, R].
  - intros f args body IHb k IHk C s R. cbn in C. destruct C as (Cb & Ck). rewrite run_native_step, spec_native_step.
    pose proof (native_ran f args (run_rust faults message_of unexpected body) (rust_spec message_of unexpected body) s (IHb Cb) R) as D.
    destruct (call_spec message_of f args (rust_spec message_of unexpected body) (objs s)) as [r o].
    destruct D as (s1 & E1 & R1 & F1 & L1). specialize (IHk r (Ck r) s1 R1). rewrite L1 in IHk.
    destruct (kotlin_spec message_of unexpected (k r) o) as [e o2]. destruct IHk as [Qe (s2 & E2 & R2 & F2 & L2)].
    split; [exact Qe|]. exists s2. unfold bind. rewrite E1, E2.
    split; [reflexivity|]. split; [exact R2|]. split; congruence.
Qed.

End vm.

Lemma calls_right_proof : calls_right.
Proof.
  intros faults message_of unexpected f args body s Hh R C. unfold call.
  apply native_ran; [exact Hh | | exact R]. apply (proj1 (programs_ran faults message_of unexpected Hh)), C.
Qed.
Lemma rust_right_proof : rust_right.
Proof.
  intros faults message_of unexpected body s Hh R C.
  exact (proj1 (programs_ran faults message_of unexpected Hh) body C s R).
Qed.
