From Coq Require Import Sorting.Permutation.
From Verif Require Import Base Buf_Model Buf_Spec Buf_Proofs Scaf_Model Scaf_Spec.

Lemma lower_contents h m h' b : lower_string h m = (h', b) -> contents h' b = m /\ len b = zlen m.
Proof.
  unfold lower_string, new_vec, contents. cbn [repeat]. rewrite app_nil_r. destruct m as [|x m].
  - intros H. injection H as <- <-. cbn [from_vec empty_vec vptr vlen data len]. split; [|reflexivity]. destruct (block 1 (blocks h)); reflexivity.
  - cbn [alloc]. intros H. injection H as <- <-. cbn [from_vec vptr vlen data len blocks block]. rewrite Z.eqb_refl.
    split; [|reflexivity]. unfold zlen. rewrite Nat2Z.id. apply firstn_all.
Qed.

Lemma shown_len (m : bytes) : (if Z.ltb 0 (zlen m) then m else lit "Unknown rust panic") = shown m.
Proof. destruct m; reflexivity. Qed.

Lemma sees_unexpected {R} h m h' b (r : R) : lower_string h m = (h', b) -> check_status h' (ST UnexpectedError b) r = Unexpected (shown m).
Proof. intros H. apply lower_contents in H as [H1 H2]. unfold check_status; cbn. rewrite H1, H2, shown_len. reflexivity. Qed.

Lemma sees_error {R} h b (r : R) : check_status h (ST Error b) r = DeclaredError (contents h b).
Proof. reflexivity. Qed.

Section Types.
Context {V E R : Type}.
Variable debug : E -> bytes.
Implicit Types (f : fn V E R) (args pre post : list (arg V E)) (a : arg V E) (r : lres V E) (vs : list V).

Lemma lift_lifts args h vs h1 : lifts args h vs h1 -> lift_args args h = (h1, AllLifted vs).
Proof. induction 1; cbn; auto. rewrite H, IHlifts. reflexivity. Qed.

Lemma lift_failing : forall pre a post h vs h1 h2 r, lifts pre h vs h1 -> alift a h1 = (h2, r) -> (forall v, r <> LOk v) ->
  lift_args (pre ++ a :: post) h = (h2, match r with LOk v => AllLifted [] | LErr e => FailedLift (aname a) e | LPanic p => LiftPanics p end).
Proof.
  intros pre a post h vs h1 h2 r L. induction L; intros Ha N; cbn [app lift_args].
  - rewrite Ha. destruct r; auto. destruct (N v); auto.
  - rewrite H, IHL by auto. destruct r; auto. destruct (N v0); auto.
Qed.

Lemma called_once args h vs h1 : lifts args h vs h1 -> calls args h = [vs].
Proof. intros L. unfold calls. rewrite (lift_lifts _ _ _ _ L). auto. Qed.

Lemma not_called args h a h2 r : first_failure args h a h2 r -> calls args h = [].
Proof.
  intros (N & pre & post & vs & h1 & -> & L & Ha). unfold calls. rewrite (lift_failing _ _ _ _ _ _ _ _ L Ha N). destruct r; auto. destruct (N v); auto.
Qed.

(** Every call either lifts everything or has a first failure. *)
Lemma lift_cases : forall args h, (exists vs h1, lifts args h vs h1) \/ (exists a h2 r, first_failure args h a h2 r).
Proof.
  induction args as [|a rest IH]; intros h.
  - left. exists [], h. constructor.
  - destruct (alift a h) as [h1 r] eqn:Ea. destruct r as [v|e|p].
    + destruct (IH h1) as [(vs & h2 & L)|(b & h2 & r & N & pre & post & vs & h3 & -> & L & Eb)].
      * left. exists (v :: vs), h2. econstructor; eauto.
      * right. exists b, h2, r. split; auto. exists (a :: pre), post, (v :: vs), h3. split; auto. split; auto. econstructor; eauto.
    + right. exists a, h1, (LErr e). split; [congruence|]. exists [], rest, [], h. repeat split; auto. constructor.
    + right. exists a, h1, (LPanic p). split; [congruence|]. exists [], rest, [], h. repeat split; auto. constructor.
Qed.

(** ** [rust_call] *)

Lemma rc_value (d : R) st cb h h1 v : cb h = (h1, CVal v) -> rust_call d st cb h = (h1, Returned st v).
Proof. intros H. unfold rust_call, rust_call_with_out_status. rewrite H. auto. Qed.

Lemma rc_error (d : R) st cb h h1 b : cb h = (h1, CErr b) -> rust_call d st cb h = (h1, Returned (ST Error b) d).
Proof. intros H. unfold rust_call, rust_call_with_out_status. rewrite H. auto. Qed.

Lemma rc_internal (d : R) st cb h h1 m : cb h = (h1, CInternal m) ->
  exists h' b, rust_call d st cb h = (h', Returned (ST UnexpectedError b) d) /\ lower_string h1 m = (h', b).
Proof.
  intros H. unfold rust_call, rust_call_with_out_status. rewrite H. destruct (lower_string h1 m) as [h2 b]. eauto.
Qed.

Lemma rc_panic (d : R) st cb h h1 k : cb h = (h1, CPanic (Plain k)) ->
  exists h' b, rust_call d st cb h = (h', Returned (ST UnexpectedError b) d) /\ lower_string h1 (message (Plain k)) = (h', b).
Proof.
  intros H. unfold rust_call, rust_call_with_out_status. rewrite H. destruct (lower_string h1 (message (Plain k))) as [h2 b]. eauto.
Qed.

Lemma rep_internal f st cb h h1 m : cb h = (h1, CInternal m) -> reports f (rust_call (dflt f) st cb h) (Unexpected (shown m)).
Proof.
  intros H. destruct (rc_internal (dflt f) st cb h h1 m H) as (h' & b & Er & El). rewrite Er.
  do 3 eexists. split; [reflexivity|]. split; [eapply sees_unexpected; eauto|auto].
Qed.

Lemma rep_panic f st cb h h1 k : cb h = (h1, CPanic (Plain k)) -> reports f (rust_call (dflt f) st cb h) (Unexpected (shown (message (Plain k)))).
Proof.
  intros H. destruct (rc_panic (dflt f) st cb h h1 k H) as (h' & b & Er & El). rewrite Er.
  do 3 eexists. split; [reflexivity|]. split; [eapply sees_unexpected; eauto|auto].
Qed.

Lemma rep_error f st cb h h1 b : cb h = (h1, CErr b) -> reports f (rust_call (dflt f) st cb h) (DeclaredError (contents h1 b)).
Proof. intros H. rewrite (rc_error (dflt f) st cb h h1 b H). do 3 eexists. split; [reflexivity|]. split; auto. Qed.

(** ** Outcomes of a scaffolding call *)

Lemma attempt_lifts f args h vs h1 : lifts args h vs h1 -> attempt debug f args h = call_body f vs h1.
Proof. intros L. unfold attempt. rewrite (lift_lifts _ _ _ _ L). auto. Qed.

Lemma one_outcome f args st h vs h1 o : lifts args h vs h1 -> produces f vs h1 o -> code st = Success \/ failing o ->
  reports f (scaffold debug f args st h) o.
Proof.
  intros L P Hs. pose proof (attempt_lifts f args h vs h1 L) as A. unfold scaffold. inversion P; subst.
  - assert (Ea : attempt debug f args h = (h', CVal r)) by (rewrite A; unfold call_body; rewrite H; unfold to_cres; rewrite H0; auto).
    rewrite (rc_value _ _ _ _ _ _ Ea). do 3 eexists. split; [reflexivity|]. destruct Hs as [Hs|Hs]; [|destruct (Hs r); auto].
    split; [unfold check_status; rewrite Hs; auto|]. intros F. destruct (F r); auto.
  - apply rep_error with (h1 := h'). rewrite A. unfold call_body, lower_err. rewrite H, H0. auto.
  - apply rep_panic with (h1 := h1). rewrite A. unfold call_body. rewrite H. auto.
  - apply rep_panic with (h1 := h'). rewrite A. unfold call_body. rewrite H. unfold to_cres. rewrite H0. auto.
  - apply rep_panic with (h1 := h'). rewrite A. unfold call_body, lower_err. rewrite H, H0. auto.
Qed.

Lemma covered f vs h : gentle f vs h -> exists o, produces f vs h o.
Proof.
  intros (G1 & G2 & G3). destruct (body f vs) as [v|e|p] eqn:B.
  - destruct (lower_ok f v h) as [h' [r|p]] eqn:L.
    + eexists. eapply p_value; eauto.
    + destruct (G2 _ _ _ eq_refl L) as (k & ->). eexists. eapply p_value_panic; eauto.
  - destruct (lower_error f e h) as [h' [r|p]] eqn:L.
    + eexists. eapply p_error; eauto.
    + destruct (G3 _ _ _ eq_refl L) as (k & ->). eexists. eapply p_error_panic; eauto.
  - destruct (G1 _ eq_refl) as (k & ->). eexists. eapply p_panic; eauto.
Qed.

Lemma failure_reported f args st h a h2 r o : first_failure args h a h2 r -> reported_as debug f (aname a) h2 r o ->
  reports f (scaffold debug f args st h) o.
Proof.
  intros (N & pre & post & vs & h1 & -> & L & Ha) Rp. pose proof (lift_failing _ _ post _ _ _ _ _ L Ha N) as Lf.
  unfold scaffold. inversion Rp; subst.
  - apply rep_error with (h1 := h'). unfold attempt. rewrite Lf. unfold handle_failed_lift, lower_err. rewrite H, H0. auto.
  - change (failed_message (aname a) (debug e)) with (shown (failed_message (aname a) (debug e))).
    apply rep_internal with (h1 := h2). unfold attempt. rewrite Lf. unfold handle_failed_lift. rewrite H. auto.
  - change (failed_message (aname a) d) with (shown (failed_message (aname a) d)).
    apply rep_internal with (h1 := h2). unfold attempt. rewrite Lf. unfold handle_failed_lift. destruct (fallible f); auto.
  - apply rep_panic with (h1 := h2). unfold attempt. rewrite Lf. auto.
Qed.

(** ** Payloads whose destructor panics *)

Lemma single_bomb f st cb h h1 k k' : cb h = (h1, CPanic (Bomb k (Plain k'))) ->
  exists h', rust_call (dflt f) st cb h = (h', Returned (ST UnexpectedError (error_buf st)) (dflt f)).
Proof.
  intros H. unfold rust_call, rust_call_with_out_status. rewrite H. destruct (lower_string h1 _) as [h2 b]. eauto.
Qed.

Lemma double_bomb f args st h vs h1 k k' q : lifts args h vs h1 -> body f vs = FPanics (Bomb k (Bomb k' q)) ->
  snd (scaffold debug f args st h) = Unwound.
Proof.
  intros L B. unfold scaffold, rust_call, rust_call_with_out_status. rewrite (attempt_lifts _ _ _ _ _ L). unfold call_body. rewrite B.
  destruct (lower_string h1 _) as [h2 b]. auto.
Qed.

Lemma stale_success f args st h vs h1 h2 v (r : R) : lifts args h vs h1 -> body f vs = FRet v -> lower_ok f v h1 = (h2, Done r) ->
  code st = Error -> scaffold debug f args st h = (h2, Returned st r) /\ check_status h2 st r = DeclaredError (contents h2 (error_buf st)).
Proof.
  intros L B Lo C. split; [|unfold check_status; rewrite C; auto].
  unfold scaffold. apply rc_value. rewrite (attempt_lifts _ _ _ _ _ L). unfold call_body. rewrite B. unfold to_cres. rewrite Lo. auto.
Qed.

Lemma only_calls (f g : fn V E R) args st h :
  (forall vs, In vs (calls args h) -> body f vs = body g vs) ->
  fallible f = fallible g -> lower_ok f = lower_ok g -> lower_error f = lower_error g -> dflt f = dflt g ->
  scaffold debug f args st h = scaffold debug g args st h.
Proof.
  intros B F L1 L2 D. unfold scaffold. rewrite D.
  assert (A : attempt debug f args h = attempt debug g args h).
  { unfold attempt, calls in *. destruct (lift_args args h) as [h1 [vs|n e|p]]; auto.
    - unfold call_body, lower_err. rewrite (B vs) by (left; auto). rewrite L1, L2. auto.
    - unfold handle_failed_lift, lower_err. rewrite F, L2. auto. }
  unfold rust_call, rust_call_with_out_status. rewrite A. auto.
Qed.

(** ** Asynchronous functions *)

Lemma async_same f args h : (forall h1 p, lift_args args h <> (h1, LiftPanics p)) ->
  scaffold_async debug f args fresh h = scaffold debug f args fresh h.
Proof.
  intros N. unfold scaffold_async, start, scaffold, rust_call.
  assert (A : attempt debug f args h = finish_poll debug f (snd (lift_args args h)) (fst (lift_args args h))).
  { unfold attempt, finish_poll. destruct (lift_args args h) as [h1 [vs|n e|p]]; auto. }
  destruct (lift_args args h) as [h1 l] eqn:El. cbn [fst snd] in A.
  assert (E1 : (match l with LiftPanics _ => Aborted | _ => Future h1 l end) = Future h1 l).
  { destruct l; auto. destruct (N h1 p); auto. }
  rewrite E1. unfold complete, rust_call_with_out_status. rewrite A.
  destruct (finish_poll debug f l h1) as [h2 [v|b|m|p]]; auto.
  - destruct (lower_string h2 m); auto.
  - destruct (lower_string h2 (message p)) as [h3 b]. destruct p as [k|k [k'|k' q]]; auto.
Qed.

Lemma async_aborts f args st h h1 p : lift_args args h = (h1, LiftPanics p) -> snd (scaffold_async debug f args st h) = Unwound.
Proof. intros H. unfold scaffold_async, start. rewrite H. auto. Qed.

(** ** Buffers passed as arguments *)

Lemma args_own w (reader : bytes -> lres V E) : forall bs names h rest, own w h (bs ++ rest) -> length names = length bs ->
  forall vs h1, lifts (map (fun nb => buf_arg w (fst nb) reader (snd nb)) (combine names bs)) h vs h1 -> own w h1 rest.
Proof.
  induction bs as [|b bs IH]; intros [|n names] h rest O Len vs h1 L; cbn in Len; try discriminate; cbn [combine map] in L.
  - inversion L; subst. auto.
  - inversion L; subst. cbn [app] in O. destruct (own_destroy w _ _ _ O) as (v' & D & _ & _ & _ & O' & _).
    match goal with X : alift _ _ = _ |- _ => cbn [buf_arg alift fst snd] in X; unfold lift_with in X; rewrite D in X; injection X as <- _ end.
    eapply IH; eauto.
Qed.

End Types.

Lemma free_default w st h : rustbuffer_free w null_buf st h = (h, Returned st tt).
Proof. reflexivity. Qed.

(** ** Borrowed slices *)

Lemma read_mem_nth m : forall n p i, i < n -> nth_error (read_mem m p n) i = Some (m (p + Z.of_nat i)%Z).
Proof.
  induction n; intros p i H; [lia|]. destruct i; cbn [read_mem nth_error].
  - rewrite Z.add_0_r. auto.
  - rewrite IHn by lia. do 2 f_equal. lia.
Qed.

Lemma slice_ok ty m d : good_slice d -> as_slice ty m d = Done (read_mem m (fdata d) (Z.to_nat (flen d))).
Proof.
  intros [G1 G2]. unfold as_slice. destruct (Z.eqb_spec (fdata d) 0) as [Z0|Z0].
  - rewrite (G2 Z0). reflexivity.
  - rewrite (proj2 (Z.ltb_ge _ _)) by auto. auto.
Qed.

Lemma slice_bad ty m d : ~ good_slice d -> exists k, as_slice ty m d = Panics (Plain k).
Proof.
  intros G. unfold as_slice. destruct (Z.eqb_spec (fdata d) 0) as [Z0|Z0].
  - destruct (Z.eqb_spec (flen d) 0) as [L0|L0]; [|cbn; unfold assertion; eauto]. destruct G. split; [lia|auto].
  - destruct (Z.ltb_spec (flen d) 0); [unfold expect; eauto|]. destruct G. split; [lia|]. intros; contradiction.
Qed.

Lemma slice_seen ty m d : good_slice d -> exists bs, as_slice ty m d = Done bs /\ zlen bs = flen d /\
  forall i, (Z.of_nat i < flen d)%Z -> nth_error bs i = Some (m (fdata d + Z.of_nat i)%Z).
Proof.
  intros G. rewrite (slice_ok ty m d G). eexists. split; [reflexivity|]. split.
  - unfold zlen. rewrite read_mem_len. destruct G. lia.
  - intros i H. apply read_mem_nth. lia.
Qed.

Lemma write_mem_out : forall bs m p q, (q < p \/ p + zlen bs <= q)%Z -> write_mem m p bs q = m q.
Proof.
  induction bs as [|b bs IH]; intros m p q H; cbn [write_mem]; auto. assert (zlen (b :: bs) = 1 + zlen bs)%Z by (unfold zlen; cbn [length]; lia).
  pose proof (zlen_nonneg bs). rewrite IH by lia. destruct (Z.eqb_spec q p); [lia|auto].
Qed.

Lemma write_mem_in : forall bs m p i b, nth_error bs i = Some b -> write_mem m p bs (p + Z.of_nat i)%Z = b.
Proof.
  induction bs as [|c bs IH]; intros m p i b H; destruct i; cbn [nth_error write_mem] in *; try discriminate.
  - injection H as ->. rewrite write_mem_out by (unfold zlen; lia). rewrite Z.add_0_r, Z.eqb_refl. auto.
  - replace (p + Z.of_nat (S i))%Z with (p + 1 + Z.of_nat i)%Z by lia. eapply IH; eauto.
Qed.

Lemma slice_mutated {A} m d (f : bytes -> bytes * A) bs' a : good_slice d ->
  f (read_mem m (fdata d) (Z.to_nat (flen d))) = (bs', a) -> zlen bs' = flen d ->
  exists m', with_mut_slice m d f = (m', Done a) /\
    (forall i b, nth_error bs' i = Some b -> m' (fdata d + Z.of_nat i)%Z = b) /\
    (forall q, (q < fdata d \/ fdata d + flen d <= q)%Z -> m' q = m q).
Proof.
  intros G F L. unfold with_mut_slice. rewrite (slice_ok _ _ _ G), F.
  assert (Rs : resize (length (read_mem m (fdata d) (Z.to_nat (flen d)))) (read_mem m (fdata d) (Z.to_nat (flen d))) bs' = bs').
  { unfold resize. rewrite read_mem_len, firstn_app. unfold zlen in L. replace (Z.to_nat (flen d) - length bs') with 0 by lia.
    cbn [firstn]. rewrite app_nil_r. apply firstn_all2. lia. }
  rewrite Rs. eexists. split; [reflexivity|]. split.
  - intros i b H. apply write_mem_in; auto.
  - intros q H. apply write_mem_out. lia.
Qed.

Lemma slice_refused {A} m d (f : bytes -> bytes * A) : ~ good_slice d -> exists k, with_mut_slice m d f = (m, Panics (Plain k)).
Proof. intros G. unfold with_mut_slice. destruct (slice_bad "ForeignBytesMut" m d G) as (k & ->). eauto. Qed.

Lemma slice_arg_refused {E R} (debug : E -> bytes) (m : mem) (name : bytes) (f : fn fbytes E R) (g : bytes -> fres fbytes E) d st h :
  body f = slice_body m g -> ~ good_slice d ->
  exists msg, msg <> [] /\ reports f (scaffold debug f [slice_arg name d] st h) (Unexpected msg).
Proof.
  intros B G. assert (X : exists k, as_slice "ForeignBytes" m d = Panics (Plain k) /\ message (Plain k) <> []).
  { unfold as_slice. destruct (Z.eqb_spec (fdata d) 0) as [Z0|Z0].
    - destruct (Z.eqb_spec (flen d) 0) as [L0|L0]; [destruct G; split; [lia|auto]|].
      eexists. split; [reflexivity|]. cbn [message]. discriminate.
    - destruct (Z.ltb_spec (flen d) 0); [|destruct G; split; [lia|intros; contradiction]].
      eexists. split; [reflexivity|]. cbn [message]. discriminate. }
  destruct X as (k & Ek & Nk). exists (shown (message (Plain k))). split.
  - destruct (message (Plain k)); [contradiction|discriminate].
  - eapply one_outcome with (vs := [d]) (h1 := h).
    + econstructor; [reflexivity|constructor].
    + apply p_panic. rewrite B. cbn [slice_body]. rewrite Ek. auto.
    + right. discriminate.
Qed.

Definition leak_fn : fn bytes unit unit := Fn false (fun _ => FRet []) (fun _ h => (h, Done tt)) (fun _ h => (h, Done null_buf)) tt.
Definition leak_args (w : width) (b1 b2 : rbuf) : list (arg bytes unit) :=
  [buf_arg w (lit "a") (fun _ => LErr (Other [])) b1; buf_arg w (lit "b") LOk b2].

Lemma leak w : exists s rs b1 b2, run w world0 [Lower [x01] 0; Lower [x02] 0] = Some (s, rs) /\ held s = [b1; b2] /\
  exists h' st' r, scaffold (fun _ => []) leak_fn (leak_args w b1 b2) fresh (hp s) = (h', Returned st' r) /\
  code st' = UnexpectedError /\ block (data b2) (blocks h') = Some [x02] /\ ~ sound (mkw h' [error_buf st']).
Proof.
  do 4 eexists. destruct w; (split; [vm_compute; reflexivity|]); (split; [reflexivity|]); do 3 eexists;
    (split; [vm_compute; reflexivity|]); (split; [reflexivity|]); (split; [reflexivity|]);
    (intros (_ & P & _); apply Permutation_length in P; vm_compute in P; discriminate).
Qed.

Lemma args_freed {V E} w (reader : bytes -> lres V E) xs s rs bs rest names vs h1 :
  Forall (fits w) xs -> run w world0 xs = Some (s, rs) -> held s = bs ++ rest -> length names = length bs ->
  lifts (map (fun nb => buf_arg w (fst nb) reader (snd nb)) (combine names bs)) (hp s) vs h1 -> sound (mkw h1 rest).
Proof.
  intros F R H L X. apply (own_sound w). cbn [hp held]. destruct (run_own w xs world0 s rs (own_init w) F R) as [O _]. rewrite H in O.
  eapply args_own; eauto.
Qed.

Lemma alloc_truncates : exists s, run W32 world0 [Alloc (2 ^ 32 + 5)] = Some (s, [RBuffer]) /\ view s = [AB (repeat x00 5) 5].
Proof. eexists. split; vm_compute; reflexivity. Qed.

Lemma reserve_ambiguous : exists s1 s2,
  run W32 world0 [Lower [x01; x02] 0; Reserve 0 (2 ^ 32) 0] = Some (s1, [RBuffer; RRefused UnexpectedError]) /\
  run W32 world0 [Lower [x01; x02] 0; Reserve 0 (2 ^ 31) 0] = Some (s2, [RBuffer; RRefused UnexpectedError]) /\
  length (held s1) = 2 /\ length (held s2) = 1.
Proof. do 2 eexists. split; [vm_compute; reflexivity|]. split; [vm_compute; reflexivity|]. split; reflexivity. Qed.
