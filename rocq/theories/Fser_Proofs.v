From Verif Require Import Base Fser_Model Fser_Spec.
Local Open Scope Z_scope.

Lemma put_get_unsigned : forall w e v, 0 < w -> 0 <= v < 2 ^ w -> get_unsigned w (put_bits w e v) = v.
Proof.
  intros w e v W V. unfold get_unsigned, put_bits.
  rewrite Z.add_comm, Z_mod_plus_full, Zmod_mod. apply Z.mod_small. exact V.
Qed.

Lemma pow_half : forall w, 0 < w -> 2 ^ w = 2 * 2 ^ (w - 1).
Proof. intros w W. rewrite <- Z.pow_succ_r by lia. f_equal. lia. Qed.

Lemma put_get_signed : forall w e v, 0 < w -> - 2 ^ (w - 1) <= v < 2 ^ (w - 1) ->
  get_signed w (put_bits w e v) = v.
Proof.
  intros w e v W V. unfold get_signed, put_bits.
  rewrite Z.add_comm, Z_mod_plus_full, Zmod_mod.
  pose proof (pow_half w W) as P. cbn zeta.
  destruct (Z_lt_ge_dec v 0) as [N | N].
  - replace (v mod 2 ^ w) with (v + 2 ^ w).
    + destruct (Z.ltb_spec (v + 2 ^ w) (2 ^ (w - 1))); lia.
    + rewrite <- (Z_mod_plus_full v 1 (2 ^ w)), Z.mul_1_l. symmetry. apply Z.mod_small. lia.
  - rewrite Z.mod_small by lia. destruct (Z.ltb_spec v (2 ^ (w - 1))); lia.
Qed.

(** Buffers long enough for a type, taken apart. *)
Lemma long_enough : forall n (buf : list elt), (n <= length buf)%nat ->
  exists a b, buf = a ++ b /\ length a = n.
Proof.
  intros n buf L. exists (firstn n buf), (skipn n buf). split.
  - symmetry. apply firstn_skipn.
  - rewrite firstn_length. lia.
Qed.

Lemma size_elements : forall t, size t = elements t.
Proof. destruct t; reflexivity. Qed.

Lemma size_total : forall ts, ffi_buffer_size ts = total ts.
Proof.
  induction ts as [|t ts IH]; [reflexivity|].
  cbn [ffi_buffer_size total map list_sum]. rewrite IH, size_elements. reflexivity.
Qed.

Ltac one a := let x := fresh "x" in destruct a as [|x a]; [discriminate|].
Ltac none a := destruct a; [|discriminate].

(** One value: [put] writes its own elements and no other, and [get] reads it back from them
    whatever follows. *)
Lemma put_spec : forall t v buf, has_type v t -> (size t <= length buf)%nat ->
  exists a, put t buf v = Ok (a ++ skipn (size t) buf) /\ length a = size t /\
    forall rest, get t (a ++ rest) = Ok v.
Proof.
  intros t v buf T L.
  destruct (long_enough _ _ L) as (a & b & -> & A).
  rewrite <- A, skipn_app, skipn_all, Nat.sub_diag. cbn [skipn app].
  destruct t as [w | w | | | | | | | | |];
    destruct v as [z | z | bb | | z | c l d | l d | code c l d]; try contradiction;
    try (destruct w; try contradiction);
    cbn [size] in A; try (one a); try (one a); try (one a); try (one a); none a;
    cbn [put app set_ bind put_buffer bits] in *.
  all: try (match goal with |- exists a, Ok ?x = _ /\ _ => idtac end).
  all: cbn [has_type] in T.
  all: unfold unsigned, signed in T.
  all: try (eexists (_ :: nil); split; [reflexivity|]; split; [reflexivity|]; intro rest;
            cbn [get app at_ nth_error bind];
            first [ rewrite put_get_unsigned by lia | rewrite put_get_signed by lia ]; reflexivity).
  - eexists (_ :: nil). split; [reflexivity|]. split; [reflexivity|]. intro rest.
    cbn [get app at_ nth_error bind]. rewrite put_get_signed by (destruct bb; lia).
    destruct bb; reflexivity.
  - exists nil. split; [reflexivity|]. split; [reflexivity|]. reflexivity.
  - destruct T as (T1 & T2 & T3).
    eexists (_ :: _ :: _ :: nil). split; [reflexivity|]. split; [reflexivity|]. intro rest.
    cbn [get get_buffer app at_ nth_error bind]. rewrite !put_get_unsigned by lia. reflexivity.
  - destruct T as (T1 & T2).
    eexists (_ :: _ :: nil). split; [reflexivity|]. split; [reflexivity|]. intro rest.
    cbn [get get_buffer app at_ nth_error bind].
    rewrite put_get_unsigned, put_get_signed by lia. reflexivity.
  - destruct T as (T0 & T1 & T2 & T3).
    eexists (_ :: _ :: _ :: _ :: nil). split; [reflexivity|]. split; [reflexivity|]. intro rest.
    cbn [get get_buffer app at_ nth_error bind].
    rewrite !put_get_unsigned by lia.
    assert (-128 <= code < 128) by lia.
    rewrite put_get_signed by (change (2 ^ (8 - 1)) with 128; lia).
    destruct T0 as [-> | [-> | [-> | ->]]]; reflexivity.
Qed.

Lemma write_spec : forall t v buf, has_type v t -> (size t <= length buf)%nat ->
  exists a, write t buf v = Ok (a, skipn (size t) buf) /\ length a = size t /\
    forall rest, get t (a ++ rest) = Ok v.
Proof.
  intros t v buf T L. destruct (put_spec t v buf T L) as (a & P & A & G).
  exists a. split; [|split; assumption].
  unfold write. rewrite P. cbn [bind].
  assert (Z : (size t <=? length (a ++ skipn (size t) buf))%nat = true).
  { apply Nat.leb_le. rewrite app_length. lia. }
  rewrite Z, <- A, firstn_app, skipn_app, firstn_all, skipn_all, Nat.sub_diag.
  cbn [firstn skipn app]. rewrite app_nil_r. reflexivity.
Qed.

Lemma read_spec : forall t v a rest, length a = size t -> get t (a ++ rest) = Ok v ->
  read t (a ++ rest) = Ok (v, rest).
Proof.
  intros t v a rest A G. unfold read. rewrite G. cbn [bind].
  assert (Z : (size t <=? length (a ++ rest))%nat = true).
  { apply Nat.leb_le. rewrite app_length. lia. }
  rewrite Z, <- A, skipn_app, skipn_all, Nat.sub_diag. reflexivity.
Qed.

Lemma skipn_twice : forall {A} a b (l : list A), skipn a (skipn b l) = skipn (b + a) l.
Proof.
  intros A a b. induction b as [|b IH]; intro l; [reflexivity|].
  destruct l; [rewrite !skipn_nil; reflexivity | apply IH].
Qed.

Lemma write_all_spec : forall tvs buf, typed tvs -> (ffi_buffer_size (map fst tvs) <= length buf)%nat ->
  exists a, write_all tvs buf = Ok (a ++ skipn (ffi_buffer_size (map fst tvs)) buf) /\
    length a = ffi_buffer_size (map fst tvs) /\
    forall rest, read_all (map fst tvs) (a ++ rest) = Ok (map snd tvs).
Proof.
  induction tvs as [|[t v] tvs IH]; intros buf T L.
  - exists nil. repeat split; reflexivity.
  - inversion T as [|x y T1 T2]; subst. cbn [map fst snd ffi_buffer_size] in *.
    destruct (write_spec t v buf T1 ltac:(lia)) as (a & W & A & G).
    destruct (IH (skipn (size t) buf) T2) as (a' & W' & A' & G').
    { rewrite skipn_length. lia. }
    exists (a ++ a'). split; [|split].
    + cbn [write_all]. rewrite W. cbn [bind fst snd]. rewrite W'. cbn [bind].
      rewrite skipn_twice, app_assoc. reflexivity.
    + rewrite app_length, A, A'. reflexivity.
    + intro rest. rewrite <- app_assoc. cbn [read_all].
      rewrite (read_spec t v a (a' ++ rest) A (G _)). cbn [bind fst snd].
      rewrite G'. reflexivity.
Qed.

Lemma skipn_app_exact : forall {A} (a b : list A) n, length a = n -> skipn n (a ++ b) = b.
Proof. intros A a b n <-. rewrite skipn_app, skipn_all, Nat.sub_diag. reflexivity. Qed.
Lemma firstn_app_exact : forall {A} (a b : list A) n, length a = n -> firstn n (a ++ b) = a.
Proof. intros A a b n <-. rewrite firstn_app, firstn_all, Nat.sub_diag. cbn. apply app_nil_r. Qed.

Lemma write_then_read : forall tvs buf, typed tvs -> (total (map fst tvs) <= length buf)%nat ->
  exists buf', write_all tvs buf = Ok buf' /\ length buf' = length buf /\
    skipn (total (map fst tvs)) buf' = skipn (total (map fst tvs)) buf /\
    read_all (map fst tvs) buf' = Ok (map snd tvs).
Proof.
  intros tvs buf T L. rewrite <- size_total in *.
  destruct (write_all_spec tvs buf T L) as (a & W & A & G).
  eexists. split; [exact W|]. split; [|split].
  - rewrite app_length, skipn_length. lia.
  - apply skipn_app_exact. exact A.
  - apply G.
Qed.

Lemma write_all_app : forall tvs tvs' buf,
  write_all (tvs ++ tvs') buf =
  bind (write_all tvs buf) (fun b => let n := ffi_buffer_size (map fst tvs) in
    bind (write_all tvs' (skipn n b)) (fun rest => Ok (firstn n b ++ rest))).
Proof.
  induction tvs as [|[t v] tvs IH]; intros tvs' buf.
  - cbn [app write_all bind map ffi_buffer_size skipn firstn].
    destruct (write_all tvs' buf); reflexivity.
  - cbn [app write_all map fst ffi_buffer_size].
    destruct (write t buf v) as [[a b] | | |] eqn:W; cbn [bind fst snd]; [|reflexivity..].
    rewrite IH. destruct (write_all tvs b) as [c | | |] eqn:W'; cbn [bind]; [|reflexivity..].
    assert (A : length a = size t).
    { unfold write in W. destruct (put t buf v) as [p| | |]; cbn [bind] in W; try discriminate.
      destruct (Nat.leb_spec (size t) (length p)); [|discriminate].
      injection W as <- <-. rewrite firstn_length. lia. }
    rewrite <- A. cbn zeta.
    set (n := ffi_buffer_size (map fst tvs)).
    rewrite skipn_app, firstn_app. replace (length a + n - length a)%nat with n by lia.
    rewrite (skipn_all2 a) by lia. rewrite (firstn_all2 a) by lia. cbn [app].
    destruct (write_all tvs' _); cbn [bind]; [|reflexivity..].
    rewrite app_assoc. reflexivity.
Qed.

Lemma fbs_app : forall a b, ffi_buffer_size (a ++ b) = (ffi_buffer_size a + ffi_buffer_size b)%nat.
Proof. induction a as [|t a IH]; intro b; cbn [app ffi_buffer_size]; rewrite ?IH; lia. Qed.

(** Where each value goes. *)
Lemma each_in_place : forall before t v after buf buf',
  typed (before ++ (t, v) :: after) ->
  write_all (before ++ (t, v) :: after) buf = Ok buf' ->
  get t (skipn (total (map fst before)) buf') = Ok v.
Proof.
  intros before t v after buf buf' T W. rewrite <- size_total.
  destruct (le_lt_dec (ffi_buffer_size (map fst (before ++ (t, v) :: after))) (length buf)) as [L | L].
  - apply Forall_app in T. destruct T as [T1 T2]. inversion T2 as [|x y T3 T4]; subst.
    rewrite map_app, fbs_app in L. cbn [map fst ffi_buffer_size] in L.
    rewrite write_all_app in W.
    destruct (write_all_spec before buf T1 ltac:(lia)) as (a & W1 & A & _).
    rewrite W1 in W. cbn [bind] in W. rewrite (skipn_app_exact _ _ _ A), (firstn_app_exact _ _ _ A) in W.
    cbn [write_all] in W.
    destruct (write_spec t v (skipn (ffi_buffer_size (map fst before)) buf) T3) as (p & W2 & P & G).
    { rewrite skipn_length. lia. }
    rewrite W2 in W. cbn [bind fst snd] in W.
    destruct (write_all after _) as [c | | |]; cbn [bind] in W; try discriminate.
    injection W as <-. rewrite (skipn_app_exact _ _ _ A). apply G.
  - exfalso. revert L. apply Nat.nlt_ge.
    assert (H : forall tvs buf buf', write_all tvs buf = Ok buf' ->
              (ffi_buffer_size (map fst tvs) <= length buf)%nat).
    { clear. induction tvs as [|[t v] tvs IH]; intros buf buf' W; [cbn; lia|].
      cbn [write_all] in W. cbn [map fst ffi_buffer_size].
      destruct (write t buf v) as [[a b] | | |] eqn:E; cbn [bind fst snd] in W; try discriminate.
      destruct (write_all tvs b) as [c | | |] eqn:W'; cbn [bind] in W; try discriminate.
      apply IH in W'. unfold write in E.
      destruct (put t buf v) as [p| | |] eqn:P; cbn [bind] in E; try discriminate.
      destruct (Nat.leb_spec (size t) (length p)) as [Q | Q]; [|discriminate].
      injection E as <- <-. rewrite skipn_length in W'.
      assert (length p = length buf); [|lia].
      assert (S1 : forall l i f l', set_ l i f = Ok l' -> length l' = length l).
      { clear. induction l as [|e l IH]; intros i f l' S1; [discriminate|].
        destruct i; cbn [set_] in S1.
        - injection S1 as <-. reflexivity.
        - destruct (set_ l i f) eqn:E; cbn [bind] in S1; try discriminate.
          injection S1 as <-. cbn. f_equal. eapply IH. exact E. }
      clear - P S1. destruct t, v; cbn [put] in P; unfold put_buffer in P; try discriminate;
        try (eapply S1; eassumption); try (injection P as <-; reflexivity).
      - match type of P with bind ?s _ = _ => destruct s eqn:E0 end; cbn [bind] in P; try discriminate.
        match type of P with bind ?s _ = _ => destruct s eqn:E1 end; cbn [bind] in P; try discriminate.
        apply S1 in E0, E1, P. lia.
      - match type of P with bind ?s _ = _ => destruct s eqn:E0 end; cbn [bind] in P; try discriminate.
        apply S1 in E0, P. lia.
      - match type of P with bind ?s _ = _ => destruct s eqn:E0 end; cbn [bind] in P; try discriminate.
        match type of P with bind ?s _ = _ => destruct s eqn:E1 end; cbn [bind] in P; try discriminate.
        match type of P with bind ?s _ = _ => destruct s eqn:E2 end; cbn [bind] in P; try discriminate.
        apply S1 in E0, E1, E2, P. lia. }
    eapply H. exact W.
Qed.

Lemma no_overlap : forall before t v v' after buf b b',
  typed (before ++ (t, v) :: after) -> has_type v' t ->
  (total (map fst (before ++ (t, v) :: after)) <= length buf)%nat ->
  write_all (before ++ (t, v) :: after) buf = Ok b ->
  write_all (before ++ (t, v') :: after) buf = Ok b' ->
  firstn (total (map fst before)) b' = firstn (total (map fst before)) b /\
  skipn (total (map fst before) + elements t) b' = skipn (total (map fst before) + elements t) b.
Proof.
  intros before t v v' after buf b b' T T' L W W'. rewrite <- ?size_total, <- ?size_elements in *.
  rewrite map_app, fbs_app in L. cbn [map fst ffi_buffer_size] in L.
  apply Forall_app in T. destruct T as [T1 T2]. inversion T2 as [|x y T3 T4]; subst.
  rewrite write_all_app in W, W'.
  destruct (write_all_spec before buf T1 ltac:(lia)) as (a & W1 & A & _).
  rewrite W1 in W, W'. cbn [bind] in W, W'.
  rewrite (skipn_app_exact _ _ _ A), (firstn_app_exact _ _ _ A) in W, W'. cbn [write_all] in W, W'.
  set (r := skipn (ffi_buffer_size (map fst before)) buf) in *.
  assert (R : (size t <= length r)%nat) by (subst r; rewrite skipn_length; lia).
  destruct (write_spec t v r T3 R) as (p & W2 & P & _).
  destruct (write_spec t v' r T' R) as (p' & W2' & P' & _).
  rewrite W2 in W. rewrite W2' in W'. cbn [bind fst snd] in W, W'.
  destruct (write_all after _) as [c | | |]; cbn [bind] in W, W'; try discriminate.
  injection W as <-. injection W' as <-.
  rewrite !(firstn_app_exact _ _ _ A). split; [reflexivity|].
  rewrite !app_assoc, !skipn_app_exact; [reflexivity | rewrite app_length; lia..].
Qed.

(** A buffer that is too short: a panic, not an access outside it. *)
Lemma at_short : forall buf i, (length buf <= i)%nat -> at_ buf i = Panic.
Proof. intros buf i L. unfold at_. rewrite (proj2 (nth_error_None buf i)) by exact L. reflexivity. Qed.

Lemma get_short : forall t buf, (length buf < size t)%nat -> get t buf = Panic.
Proof.
  intros t buf L.
  destruct buf as [|a [|b [|c [|d buf]]]]; destruct t; cbn [size length] in L; try lia; reflexivity.
Qed.

Lemma put_short : forall t v buf, has_type v t -> (length buf < size t)%nat -> put t buf v = Panic.
Proof.
  intros t v buf T L.
  destruct buf as [|a [|b [|c [|d buf]]]]; destruct t; cbn [size length] in L; try lia;
    destruct v; try contradiction; try (destruct w; contradiction); reflexivity.
Qed.

Lemma read_any : forall t buf, (size t <= length buf)%nat ->
  exists v, read t buf = Ok (v, skipn (size t) buf) /\ has_type v t.
Proof.
  intros t buf L. unfold read. rewrite (proj2 (Nat.leb_le _ _) L).
  assert (U : forall w e, 0 < w -> 0 <= get_unsigned w e < 2 ^ w).
  { intros w e W. apply Z.mod_pos_bound. apply Z.pow_pos_nonneg; lia. }
  assert (G : forall w e, 0 < w -> - 2 ^ (w - 1) <= get_signed w e < 2 ^ (w - 1)).
  { intros w e W. unfold get_signed. cbn zeta. pose proof (U w e W) as B. unfold get_unsigned in B.
    pose proof (pow_half w W). destruct (Z.ltb_spec (e mod 2 ^ w) (2 ^ (w - 1))); lia. }
  destruct t as [w | w | | | | | | | | |]; cbn [size] in L.
  6: { eexists. split; [reflexivity|]. exact I. }
  all: destruct buf as [|a buf]; [cbn in L; lia|].
  all: try (eexists; split; [reflexivity|]; try destruct w; cbn [has_type bits]; unfold unsigned, signed;
            first [exact I | apply U; lia | apply G; lia]).
  all: destruct buf as [|b buf]; [cbn in L; lia|].
  2: { eexists. split; [reflexivity|]. cbn [has_type]. unfold unsigned, signed.
       split; [apply G | apply U]; lia. }
  all: destruct buf as [|c buf]; [cbn in L; lia|].
  { eexists. split; [reflexivity|]. cbn [has_type]. unfold unsigned.
    repeat split; apply U; lia. }
  destruct buf as [|d buf]; [cbn in L; lia|].
  eexists. split; [reflexivity|]. cbn [has_type]. unfold unsigned.
  split; [|repeat split; apply U; lia].
  unfold status_code. destruct (Z.leb_spec 0 (get_signed 8 a)); cbn [andb]; [|lia].
  destruct (Z.leb_spec (get_signed 8 a) 3); lia.
Qed.

Lemma read_all_any : forall ts buf, (total ts <= length buf)%nat ->
  exists vs, read_all ts buf = Ok vs /\ Forall2 has_type vs ts.
Proof.
  induction ts as [|t ts IH]; intros buf L; rewrite <- size_total in L; cbn [ffi_buffer_size] in L.
  - exists nil. split; [reflexivity | constructor].
  - destruct (read_any t buf ltac:(lia)) as (v & R & T).
    destruct (IH (skipn (size t) buf)) as (vs & R' & T').
    { rewrite <- size_total, skipn_length. lia. }
    exists (v :: vs). split; [|constructor; assumption].
    cbn [read_all]. rewrite R. cbn [bind fst snd]. rewrite R'. reflexivity.
Qed.

Lemma read_all_short : forall ts buf, (length buf < total ts)%nat -> read_all ts buf = Panic.
Proof.
  induction ts as [|t ts IH]; intros buf L; rewrite <- size_total in L; cbn [ffi_buffer_size] in L; [lia|].
  cbn [read_all]. destruct (le_lt_dec (size t) (length buf)) as [Q | Q].
  - destruct (read_any t buf Q) as (v & R & _). rewrite R. cbn [bind fst snd].
    rewrite IH; [reflexivity|]. rewrite <- size_total, skipn_length. lia.
  - unfold read. rewrite get_short by exact Q. reflexivity.
Qed.

Lemma write_all_short : forall tvs buf, typed tvs -> (length buf < total (map fst tvs))%nat ->
  write_all tvs buf = Panic.
Proof.
  induction tvs as [|[t v] tvs IH]; intros buf T L; rewrite <- size_total in L;
    cbn [map fst ffi_buffer_size] in L; [lia|].
  inversion T as [|x y T1 T2]; subst. cbn [fst snd] in T1.
  cbn [write_all]. destruct (le_lt_dec (size t) (length buf)) as [Q | Q].
  - destruct (write_spec t v buf T1 Q) as (a & R & _). rewrite R. cbn [bind fst snd].
    rewrite IH; [reflexivity | exact T2 |]. rewrite <- size_total, skipn_length. lia.
  - unfold write. rewrite put_short by (exact T1 || exact Q). reflexivity.
Qed.

(** Calls. *)
Lemma read_all_firstn : forall ts buf, (ffi_buffer_size ts <= length buf)%nat ->
  read_all ts (firstn (ffi_buffer_size ts) buf) = read_all ts buf.
Proof.
  induction ts as [|t ts IH]; intros buf L; [reflexivity|].
  cbn [ffi_buffer_size] in *.
  destruct (long_enough (size t) buf ltac:(lia)) as (a & b & -> & A).
  rewrite app_length in L.
  rewrite firstn_app, firstn_all2, A by lia.
  replace (size t + ffi_buffer_size ts - size t)%nat with (ffi_buffer_size ts) by lia.
  cbn [read_all].
  assert (G : forall r r', get t (a ++ r) = get t (a ++ r')).
  { intros r r'. clear - A. destruct t; cbn [size] in A;
      try (one a); try (one a); try (one a); try (one a); none a; reflexivity. }
  assert (R : forall r, read t (a ++ r) = bind (get t (a ++ b)) (fun v => Ok (v, r))).
  { intro r. unfold read. rewrite (G b r). destruct (get t (a ++ r)); cbn [bind]; [|reflexivity..].
    rewrite (proj2 (Nat.leb_le _ _)) by (rewrite app_length; lia).
    rewrite (skipn_app_exact _ _ _ A). reflexivity. }
  rewrite !R. destruct (get t (a ++ b)); cbn [bind fst snd]; [|reflexivity..].
  rewrite IH by lia. reflexivity.
Qed.

Lemma call_with_status : forall args ret (f : list fval -> fval * fval) arg_mem ret_mem,
  typed args -> (total (map fst args) <= length arg_mem)%nat ->
  (elements ret + 4 <= length ret_mem)%nat ->
  has_type (fst (f (map snd args))) ret -> has_type (snd (f (map snd args))) FStatus ->
  exists arg_mem' ret_mem', write_all args arg_mem = Ok arg_mem' /\
    buffer_fn (map fst args) ret f arg_mem' ret_mem = Ok ret_mem' /\
    read_all [ret; FStatus] ret_mem' = Ok [fst (f (map snd args)); snd (f (map snd args))] /\
    length ret_mem' = length ret_mem /\
    skipn (elements ret + 4) ret_mem' = skipn (elements ret + 4) ret_mem.
Proof.
  intros args ret f arg_mem ret_mem T L R F1 F2.
  destruct (write_then_read args arg_mem T L) as (am & W & WL & _ & RD).
  rewrite <- size_total in *. rewrite <- size_elements in *.
  set (n := ffi_buffer_size [ret; FStatus]).
  assert (N : n = (size ret + 4)%nat) by reflexivity.
  destruct (long_enough n ret_mem ltac:(lia)) as (p & q & -> & P).
  destruct (write_all_spec [(ret, fst (f (map snd args))); (FStatus, snd (f (map snd args)))] p)
    as (a & WA & A & G).
  { repeat (apply Forall_cons; [assumption|]). apply Forall_nil. }
  { cbn [map fst]. fold n. lia. }
  exists am, (a ++ q). split; [exact W|]. cbn [map fst] in WA, A, G. fold n in WA, A.
  rewrite (skipn_all2 (n := n) p) in WA by lia. rewrite app_nil_r in WA.
  split; [|split; [|split]].
  - unfold buffer_fn, from_raw_parts. fold n.
    rewrite (proj2 (Nat.leb_le _ (length am))) by lia. cbn [bind].
    rewrite (proj2 (Nat.leb_le _ (length (p ++ q)))) by (rewrite app_length; lia). cbn [bind].
    rewrite read_all_firstn, RD by lia. cbn [bind].
    destruct (f (map snd args)) as [value status]. cbn [fst snd] in *.
    rewrite (firstn_app_exact _ _ _ P), WA. cbn [bind]. rewrite (skipn_app_exact _ _ _ P). reflexivity.
  - apply G.
  - rewrite !app_length. lia.
  - rewrite <- N, (skipn_app_exact _ _ _ A), (skipn_app_exact _ _ _ P). reflexivity.
Qed.

Lemma call_without_status : forall args ret (f : list fval -> fval) arg_mem ret_mem,
  typed args -> (total (map fst args) <= length arg_mem)%nat ->
  (elements ret <= length ret_mem)%nat ->
  has_type (f (map snd args)) ret ->
  exists arg_mem' ret_mem', write_all args arg_mem = Ok arg_mem' /\
    buffer_fn_no_status (map fst args) ret f arg_mem' ret_mem = Ok ret_mem' /\
    read_all [ret] ret_mem' = Ok [f (map snd args)] /\
    length ret_mem' = length ret_mem /\
    skipn (elements ret) ret_mem' = skipn (elements ret) ret_mem.
Proof.
  intros args ret f arg_mem ret_mem T L R F.
  destruct (write_then_read args arg_mem T L) as (am & W & WL & _ & RD).
  rewrite <- size_total in *. rewrite <- size_elements in *.
  destruct (long_enough (size ret) ret_mem ltac:(lia)) as (p & q & -> & P).
  destruct (put_spec ret (f (map snd args)) p F ltac:(lia)) as (a & WA & A & G).
  exists am, (a ++ q). split; [exact W|].
  rewrite (skipn_all2 (n := size ret) p) in WA by lia. rewrite app_nil_r in WA.
  assert (N : ffi_buffer_size [ret] = size ret) by (cbn; lia).
  split; [|split; [|split]].
  - unfold buffer_fn_no_status, from_raw_parts. cbn zeta. rewrite N.
    rewrite (proj2 (Nat.leb_le _ (length am))) by lia. cbn [bind].
    rewrite (proj2 (Nat.leb_le _ (length (p ++ q)))) by (rewrite app_length; lia). cbn [bind].
    rewrite read_all_firstn, RD by lia. cbn [bind].
    rewrite (firstn_app_exact _ _ _ P), WA. cbn [bind]. rewrite (skipn_app_exact _ _ _ P). reflexivity.
  - cbn [read_all]. rewrite (read_spec ret _ a q A (G _)). reflexivity.
  - rewrite !app_length. lia.
  - rewrite (skipn_app_exact _ _ _ A), (skipn_app_exact _ _ _ P). reflexivity.
Qed.
