(** Defaults from UDL and from the macros, and the calls of generated Python functions. *)
From Coq Require Import QArith.QArith_base QArith.Qreduction.
From Verif Require Import Base Meta_Types Meta_Model Meta_Proofs Sort_Model Jni_Model Jni_Spec Jni_Layout_Proofs
  Lit_Spec Lit_Model Lit_Text_Proofs Lit_Proofs.
Local Open Scope list_scope.
Local Open Scope Z_scope.

(** * UDL *)

Lemma lower_digit c : digit_of (lower c) = digit_of c.
Proof. destruct c; reflexivity. Qed.
Lemma lower_number b s : forall acc, number_ b acc (map lower s) = number_ b acc s.
Proof.
  induction s as [|c s IH]; intros acc; cbn [map number_]; [reflexivity|].
  rewrite lower_digit. destruct (digit_of c) as [d|]; [|reflexivity].
  destruct (d <? b); [apply IH|reflexivity].
Qed.
Lemma number_lower b s : number b (map lower s) = number b s.
Proof. destruct s; [reflexivity|]. exact (lower_number b (b0 :: s) 0). Qed.
Lemma digit_nonneg c d : digit_of c = Some d -> 0 <= d.
Proof. destruct c; vm_compute; intros [= <-]; discriminate. Qed.
Lemma number_nonneg_ b s : 0 <= b -> forall acc z, 0 <= acc -> number_ b acc s = Some z -> 0 <= z.
Proof.
  intros B. induction s as [|c s IH]; cbn [number_]; intros acc z A H; [congruence|].
  destruct (digit_of c) as [d|] eqn:D; [|discriminate]. apply digit_nonneg in D.
  destruct (d <? b); [|discriminate]. apply IH in H; [exact H|nia].
Qed.
Lemma number_nonneg b s z : 0 <= b -> number b s = Some z -> 0 <= z.
Proof. intros B H. destruct s; [discriminate|]. now apply number_nonneg_ in H. Qed.
Lemma number_digits_ b s : forall acc z, number_ b acc s = Some z ->
  Forall (fun c => digit_of c <> None) s.
Proof.
  induction s as [|c s IH]; cbn [number_]; intros acc z H; constructor.
  - intros E. rewrite E in H. discriminate.
  - destruct (digit_of c); [|discriminate]. destruct (_ <? b); [|discriminate]. eauto.
Qed.
Lemma number_all b s z : number b s = Some z -> Forall (fun c => digit_of c <> None) s.
Proof. intros H. destruct s; [discriminate|]. now apply number_digits_ in H. Qed.
Lemma number_not_in b s z c : number b s = Some z -> digit_of c = None -> ~ In c s.
Proof.
  intros H D I. apply number_all in H. rewrite Forall_forall in H. exact (H _ I D).
Qed.
Lemma number_strip b s z p : number b s = Some z -> existsb (fun c => negb (is_some (digit_of c))) p = true ->
  strip p s = None.
Proof.
  intros H P. apply existsb_exists in P. destruct P as (c & I & D).
  apply (strip_none c); [exact I|]. apply (number_not_in _ _ _ _ H).
  destruct (digit_of c); [discriminate|reflexivity].
Qed.
Lemma trim_none f s : strip (S_ "0x") s = None -> trim_0x f s = s.
Proof. intros H. destruct f; [reflexivity|]. cbn [trim_0x]. now rewrite H. Qed.

(** What stands after the sign. *)
Definition body_value (r : radix) (s : bytes) : option Z :=
  match r with
  | Decimal_ => if no_leading_zero s then number 10 s else None
  | Hexadecimal_ => match hex_prefix s with Some h => number 16 h | None => None end
  | Octal_ => match strip (S_ "0") s with Some _ => number 8 s | None => None end
  end.
Lemma body_ok r s n : body_value r s = Some n ->
  number (radix_z r) (map lower (trim_0x (length s) s)) = Some n /\ strip (S_ "0X") s = None \/
  (exists y, map lower (trim_0x (length s) s) = x30 :: x78 :: y) /\ is_some (strip (S_ "0X") s) = true.
Proof.
  destruct r; cbn [body_value radix_z]; intros H.
  - left. destruct (no_leading_zero s); [|discriminate].
    rewrite trim_none by (apply (number_strip _ _ _ _ H); reflexivity). rewrite number_lower.
    split; [exact H|]. apply (number_strip _ _ _ _ H). reflexivity.
  - left. destruct (strip (S_ "0") s); [|discriminate].
    rewrite trim_none by (apply (number_strip _ _ _ _ H); reflexivity). rewrite number_lower.
    split; [exact H|]. apply (number_strip _ _ _ _ H). reflexivity.
  - unfold hex_prefix in H. destruct (strip (S_ "0x") s) as [h|] eqn:E; cbn [or_else] in H.
    + left. split.
      * destruct (length s) eqn:L.
        { destruct s; [discriminate E|discriminate L]. }
        cbn [trim_0x]. rewrite E.
        rewrite trim_none by (apply (number_strip _ _ _ _ H); reflexivity). now rewrite number_lower.
      * apply strip_some in E. subst. reflexivity.
    + right. destruct (strip (S_ "0X") s) as [h|] eqn:E'; [|discriminate].
      split; [|reflexivity]. rewrite trim_none by exact E. apply strip_some in E'. subst.
      exists (map lower h). reflexivity.
Qed.
Lemma body_nonneg r s n : body_value r s = Some n -> 0 <= n.
Proof.
  intros H. destruct (body_ok _ _ _ H) as [[A _]|[[y A] _]].
  - apply number_nonneg in A; [exact A|]. destruct r; cbn [radix_z]; lia.
  - destruct r; cbn [body_value] in H.
    + destruct (no_leading_zero s); [|discriminate]. apply number_nonneg in H; [exact H|lia].
    + destruct (strip _ _); [|discriminate]. apply number_nonneg in H; [exact H|lia].
    + destruct (hex_prefix s); [|discriminate]. apply number_nonneg in H; [exact H|lia].
Qed.
Lemma token_body k : token_value k =
  signed (body_value (snd (token_text k))) (fst (token_text k)).
Proof. destruct k; reflexivity. Qed.
Definition bounds (sg : bool) : Z * Z := if sg then (- 2 ^ 63, 2 ^ 63 - 1) else (0, 2 ^ 64 - 1).
Lemma from_number sg b s n : number b s = Some n ->
  from_str_radix sg b s = if (fst (bounds sg) <=? n) && (n <=? snd (bounds sg)) then Some n else None.
Proof.
  intros H. unfold from_str_radix, bounds.
  rewrite (number_strip _ _ _ (S_ "+") H eq_refl), (number_strip _ _ _ (S_ "-") H eq_refl), H.
  destruct sg; reflexivity.
Qed.
Lemma from_minus sg b s n : number b s = Some n ->
  from_str_radix sg b (x2d :: s) =
  if sg then if (- 2 ^ 63 <=? - n) && (- n <=? 2 ^ 63 - 1) then Some (- n) else None else None.
Proof.
  intros H. unfold from_str_radix.
  change (strip (S_ "+") (x2d :: s)) with (@None bytes). change (strip (S_ "-") (x2d :: s)) with (Some s).
  cbn iota. rewrite H. destruct sg; reflexivity.
Qed.
Lemma from_0x sg b s : from_str_radix sg b (x30 :: x78 :: s) = None.
Proof.
  unfold from_str_radix.
  change (strip (S_ "+") (x30 :: x78 :: s)) with (@None bytes).
  change (strip (S_ "-") (x30 :: x78 :: s)) with (@None bytes).
  cbn iota. assert (number b (x30 :: x78 :: s) = None) as ->.
  { unfold number. cbn [number_]. change (digit_of x30) with (Some 0). change (digit_of x78) with (@None Z).
    cbn iota. destruct (0 <? b); reflexivity. }
  destruct sg; reflexivity.
Qed.
Lemma from_m0x sg b s : from_str_radix sg b (x2d :: x30 :: x78 :: s) = None.
Proof.
  unfold from_str_radix.
  change (strip (S_ "+") (x2d :: x30 :: x78 :: s)) with (@None bytes).
  change (strip (S_ "-") (x2d :: x30 :: x78 :: s)) with (Some (x30 :: x78 :: s)).
  cbn iota. assert (number b (x30 :: x78 :: s) = None) as ->.
  { unfold number. cbn [number_]. change (digit_of x30) with (Some 0). change (digit_of x78) with (@None Z).
    cbn iota. destruct (0 <? b); reflexivity. }
  destruct sg; reflexivity.
Qed.
(** The number the code reads in a token. *)
Definition code_value (sg : bool) (k : int_token) : option Z :=
  let (s, r) := token_text k in
  from_str_radix sg (radix_z r)
    (map lower match strip (S_ "-") s with
               | Some r' => S_ "-" ++ trim_0x (length r') r'
               | None => trim_0x (length s) s
               end).
Definition minus_sign (k : int_token) : bool := is_some (strip (S_ "-") (fst (token_text k))).
Definition dest_radix (k : int_token) : radix :=
  let (s, r) := token_text k in
  if bytes_eqb s (S_ "0") || is_some (strip (S_ "-") s) then Decimal_ else r.
Lemma convert_integer_eq k t : convert_integer k t =
  match t with
  | TI8 | TI16 | TI32 | TI64 =>
      match code_value true k with Some z => Some (LInt z (dest_radix k) t) | None => None end
  | TU8 | TU16 | TU32 | TU64 =>
      match code_value false k with Some z => Some (LUInt z (dest_radix k) t) | None => None end
  | _ => None
  end.
Proof.
  unfold convert_integer, code_value, dest_radix. destruct (token_text k) as [s r]. reflexivity.
Qed.
Lemma code_value_sound sg k z z' : token_value k = Some z -> code_value sg k = Some z' ->
  z' = z /\ (minus_sign k = false -> 0 <= z) /\ (sg = false -> 0 <= z).
Proof.
  rewrite token_body. unfold code_value, minus_sign, signed. destruct (token_text k) as [s r].
  cbn [fst snd]. destruct (strip (S_ "-") s) as [q|] eqn:M; cbn [is_some].
  - destruct (body_value r q) as [n|] eqn:B; [|discriminate]. cbn [option_map]. intros [= <-].
    change (map lower (S_ "-" ++ trim_0x (length q) q))
      with (x2d :: map lower (trim_0x (length q) q)).
    destruct (body_ok _ _ _ B) as [[E _]|[[y E] _]].
    + rewrite (from_minus _ _ _ _ E). destruct sg; [|discriminate].
      destruct (_ && _); [|discriminate]. intros [= <-]. repeat split; discriminate.
    + rewrite E, from_m0x. discriminate.
  - intros B. pose proof (body_nonneg _ _ _ B) as P.
    destruct (body_ok _ _ _ B) as [[E _]|[[y E] _]].
    + rewrite (from_number _ _ _ _ E). destruct (_ && _); [|discriminate]. intros [= <-]. auto.
    + rewrite E, from_0x. discriminate.
Qed.
Lemma code_value_complete sg k z : token_value k = Some z -> usual (UInteger k) = true ->
  fst (bounds sg) <= z <= snd (bounds sg) -> code_value sg k = Some z.
Proof.
  intros T U R.
  assert (match strip (S_ "-") (fst (token_text k)) with
          | Some r => negb (is_some (strip (S_ "0X") r)) &&
                      match token_value k with Some z => negb (z =? 0) | None => false end
          | None => negb (is_some (strip (S_ "0X") (fst (token_text k))))
          end = true) as U' by (destruct k; exact U).
  clear U. rewrite T in U'. revert T U'. rewrite token_body. unfold code_value, signed.
  destruct (token_text k) as [s r]. cbn [fst snd].
  destruct (strip (S_ "-") s) as [q|] eqn:M.
  - destruct (body_value r q) as [n|] eqn:B; [|discriminate]. cbn [option_map]. intros [= <-] U.
    apply andb_prop in U. destruct U as [U Z0].
    change (map lower (S_ "-" ++ trim_0x (length q) q))
      with (x2d :: map lower (trim_0x (length q) q)).
    pose proof (body_nonneg _ _ _ B) as P.
    destruct (body_ok _ _ _ B) as [[E _]|[[y E] X]]; [|rewrite X in U; discriminate].
    rewrite (from_minus _ _ _ _ E). destruct sg; cbn [bounds fst snd] in R; [|lia].
    rewrite (proj2 (Z.leb_le _ _)), (proj2 (Z.leb_le _ _)) by lia. reflexivity.
  - intros B U. destruct (body_ok _ _ _ B) as [[E _]|[[y E] X]]; [|rewrite X in U; discriminate].
    rewrite (from_number _ _ _ _ E).
    rewrite (proj2 (Z.leb_le _ _)), (proj2 (Z.leb_le _ _)) by lia. reflexivity.
Qed.
Lemma dest_minus k : minus_sign k = true -> dest_radix k = Decimal_.
Proof.
  unfold minus_sign, dest_radix. destruct (token_text k) as [s r]. cbn [fst]. intros ->.
  now rewrite orb_true_r.
Qed.
Lemma ty_eqb_rfl t : ty_eqb t t = true.
Proof. now apply ty_eqb_eq. Qed.
Lemma udl_integer N k t l v : convert_integer k t = Some l -> fits t (token_value k) = Some v ->
  (exists p, range_of t = Some p) -> meaning N t (DLit l) = Some v /\ written_lit l = true.
Proof.
  intros C F [p RG]. rewrite convert_integer_eq in C. unfold fits in F.
  destruct (token_value k) as [z|] eqn:T; [|discriminate].
  destruct (in_range t z) eqn:R; [|discriminate]. injection F as <-.
  destruct t; try discriminate RG;
    match type of C with
    | match code_value ?sg ?kk with _ => _ end = _ =>
        destruct (code_value sg kk) as [z'|] eqn:V; [|discriminate C]; injection C as <-;
        destruct (code_value_sound _ _ _ _ T V) as (-> & A & B)
    end.
  all: split; [cbn [meaning]; rewrite ty_eqb_rfl, R; reflexivity|].
  all: try (cbn [written_lit]; apply Z.leb_le; apply B; reflexivity).
  all: destruct (minus_sign k) eqn:M; [rewrite (dest_minus _ M); reflexivity|].
  all: cbn [written_lit]; destruct (dest_radix k); try reflexivity; apply Z.leb_le; apply A; reflexivity.
Qed.
Lemma convert_option u t : u <> UNull ->
  convert_default u (TOption t) =
  match convert_default u t with Some l => Some (LSome (DLit l)) | None => None end.
Proof. destruct u; try reflexivity. congruence. Qed.
Lemma udl_sound N t : forall u l v, convert_default u t = Some l -> udl_meaning N t u = Some v ->
  meaning N t (DLit l) = Some v /\ written_lit l = true.
Proof.
  induction t; intros u l v C H;
    try (destruct u; cbn [udl_meaning] in H; try discriminate H; cbn [convert_default] in C;
         try (eapply udl_integer; [exact C|exact H|eexists; reflexivity]);
         injection C as <-; cbn [meaning written_lit]; rewrite ?ty_eqb_rfl;
         (split; [exact H|reflexivity])).
  destruct u; try (rewrite convert_option in C by discriminate; cbn [udl_meaning] in H;
    (destruct (convert_default _ t) as [l'|] eqn:E; [|discriminate C]); injection C as <-;
    exact (IHt _ _ _ E H)).
  cbn [convert_default] in C. cbn [udl_meaning] in H. injection C as <-. injection H as <-.
  split; reflexivity.
Qed.
Lemma range_bounds t z : in_range t z = true ->
  match t with
  | TI8 | TI16 | TI32 | TI64 => fst (bounds true) <= z <= snd (bounds true)
  | _ => fst (bounds false) <= z <= snd (bounds false)
  end.
Proof.
  intros R. destruct t; try discriminate R; unfold in_range in R; cbn [range_of] in R;
    cbn [bounds fst snd]; lia.
Qed.
Lemma udl_complete N t : forall u v, udl_meaning N t u = Some v -> usual u = true ->
  exists l, convert_default u t = Some l.
Proof.
  induction t; intros u v H U;
    try (destruct u; cbn [udl_meaning] in H; try discriminate H; cbn [convert_default];
         try (eexists; reflexivity);
         rewrite convert_integer_eq; unfold fits in H;
         (destruct (token_value _) as [z|] eqn:T; [|discriminate]);
         match type of H with (if ?x then _ else _) = _ => destruct x eqn:R; [|discriminate] end;
         pose proof (range_bounds _ _ R) as B; cbn iota in B;
         rewrite (code_value_complete _ _ _ T U B); eexists; reflexivity).
  destruct u; try (rewrite convert_option by discriminate; cbn [udl_meaning] in H;
    destruct (IHt _ _ H U) as [l ->]; eexists; reflexivity).
  eexists. reflexivity.
Qed.

(** * Python functions *)


Lemma sentinel_no_value : py_eval (S_ "_DEFAULT") = None.
Proof. reflexivity. Qed.
Lemma usable_plain N t l v : means N t l v -> can_use_literal l = true -> mutable v = false.
Proof. induction 1; intros U; try discriminate U; try reflexivity; auto. Qed.
Lemma run_value s v n : py_eval s = Some v ->
  py_run s n = Some (if mutable v then (Object_ n v, n + 1) else (Plain v, n)).
Proof.
  intros H. unfold py_run. destruct (bytes_eqb s (S_ "_DEFAULT")) eqn:E.
  - apply bytes_eqb_true in E. subst. rewrite sentinel_no_value in H. discriminate.
  - rewrite H. destruct (mutable v); reflexivity.
Qed.
Lemma bytes_eqb_rfl s : bytes_eqb s s = true.
Proof. now apply bytes_eqb_true. Qed.

(** Either the value is written in the parameter list, and cannot be changed, or it is made anew. *)
Lemma define_cases N t d v n : names_ok N -> written d = true -> lits (py_plain N) d = true ->
  set_as_list t d = false -> meaning N t d = Some v ->
  exists full, py_eval full = Some v /\
    ((mutable v = false /\ py_define N t d n = Some (PyFun full None (Plain v), n)) \/
     py_define N t d n = Some (PyFun (S_ "_DEFAULT") (Some full) Sentinel, n)).
Proof.
  intros G W P SL H. destruct (python_reads _ _ _ _ G W P SL H) as (full & D & E).
  exists full. split; [exact E|]. unfold py_define. rewrite D.
  assert (bytes_eqb full (S_ "_DEFAULT") = false) as NS.
  { destruct (bytes_eqb full (S_ "_DEFAULT")) eqn:Q; [|reflexivity].
    apply bytes_eqb_true in Q. subst. rewrite sentinel_no_value in E. discriminate. }
  assert (arg_literal N t d = Some (S_ "_DEFAULT") \/
          (arg_literal N t d = Some full /\ mutable v = false)) as [A|[A M]].
  { unfold arg_literal. destruct d as [|l].
    - destruct t; try (left; reflexivity); right; split; try exact D;
        cbn [meaning] in H; injection H as <-; reflexivity.
    - destruct (can_use_literal l) eqn:U; [right|left; reflexivity]. split; [exact D|].
      apply meaning_means in H. eapply usable_plain; eassumption. }
  - right. rewrite A. unfold py_run. rewrite bytes_eqb_rfl, NS. reflexivity.
  - left. split; [exact M|]. rewrite A, (run_value _ _ _ E), M, bytes_eqb_rfl. reflexivity.
Qed.
Lemma calls_stored f v args : pf_body f = None -> pf_stored f = Plain v -> mutable v = false ->
  forall n, exists got, py_calls f args n = Some got /\
    Forall2 (receives v) args got /\
    ids (omitted args got) = [].
Proof.
  intros B S_' M. induction args as [|a args IH]; intros n; cbn [py_calls].
  - exists []. repeat split. constructor.
  - unfold py_call. rewrite B, S_'. destruct (IH n) as (got & C & F & I). rewrite C.
    eexists. split; [reflexivity|]. split.
    + constructor; [|exact F]. destruct a; [reflexivity|]. split; [reflexivity|congruence].
    + destruct a; cbn [omitted]; [exact I|]. exact I.
Qed.
Lemma calls_made f full v args : pf_body f = Some full -> pf_stored f = Sentinel ->
  py_eval full = Some v -> given_ok args ->
  forall n, exists got, py_calls f args n = Some got /\
    Forall2 (receives v) args got /\
    NoDup (ids (omitted args got)) /\ Forall (fun i => n <= i) (ids (omitted args got)).
Proof.
  intros B S_' E. induction args as [|a args IH]; intros G n; cbn [py_calls].
  - exists []. repeat split; constructor.
  - assert (given_ok args) as G' by (intros I; apply G; now right).
    unfold py_call. rewrite B, S_'. destruct a as [o|].
    + assert (o <> Sentinel) as NS by (intros ->; apply G; now left).
      destruct (IH G' n) as (got & C & F & I & L).
      exists (o :: got). split.
      { destruct o; try congruence; rewrite C; reflexivity. }
      split; [constructor; [reflexivity|exact F]|]. split; [exact I|exact L].
    + rewrite (run_value _ _ _ E). destruct (mutable v) eqn:M.
      * destruct (IH G' (n + 1)) as (got & C & F & I & L). rewrite C.
        eexists. split; [reflexivity|]. split.
        { constructor; [|exact F]. split; [reflexivity|eauto]. }
        cbn [omitted ids flat_map app]. rewrite Forall_forall in L. split.
        -- constructor; [|exact I]. intros X. apply L in X. lia.
        -- constructor; [lia|]. rewrite Forall_forall. intros i X. apply L in X. lia.
      * destruct (IH G' n) as (got & C & F & I & L). rewrite C.
        eexists. split; [reflexivity|]. split.
        { constructor; [|exact F]. split; [reflexivity|congruence]. }
        cbn [omitted ids flat_map app]. split; assumption.
Qed.
Lemma python_calls N t d v n : names_ok N -> written d = true -> lits (py_plain N) d = true ->
  set_as_list t d = false -> meaning N t d = Some v ->
  exists f n', py_define N t d n = Some (f, n') /\ forall args, given_ok args ->
  exists got, py_calls f args n' = Some got /\
    Forall2 (receives v) args got /\
    NoDup (ids (omitted args got)) /\ Forall (fun i => n' <= i) (ids (omitted args got)).
Proof.
  intros G W P SL H.
  destruct (define_cases N t d v n G W P SL H) as (full & E & [[M D]|D]);
    do 2 eexists; (split; [exact D|]); intros args A.
  - destruct (calls_stored (PyFun full None (Plain v)) v args eq_refl eq_refl M n)
      as (got & C & F & I).
    exists got. split; [exact C|]. split; [exact F|]. rewrite I. split; constructor.
  - exact (calls_made (PyFun (S_ "_DEFAULT") (Some full) Sentinel) full v args eq_refl eq_refl E A n).
Qed.

(** * Integers written in the macros *)

Lemma parse_int_narrow sg lo hi lo' hi' bs z : parse_int sg lo' hi' bs = Some z ->
  parse_int sg lo hi bs = if (lo <=? z) && (z <=? hi) then Some z else None.
Proof.
  unfold parse_int.
  match goal with |- match ?x with _ => _ end = _ -> _ => destruct x as [w|]; [|discriminate] end.
  destruct ((lo' <=? w) && (w <=? hi')); [|discriminate]. intros [= ->]. reflexivity.
Qed.
Lemma parse_digits sg lo hi z : sg = true \/ 0 <= z ->
  parse_int sg lo hi (digits z) = if (lo <=? z) && (z <=? hi) then Some z else None.
Proof.
  intros H. apply (parse_int_narrow sg lo hi z z). apply parse_int_digits; [lia|exact H].
Qed.
Lemma parse_negative lo hi z : z < 0 -> parse_int false lo hi (digits z) = None.
Proof. intros H. destruct (proj2 (digits_head z) H) as [r ->]. reflexivity. Qed.
Lemma int_lit_negative z : z < 0 -> int_lit TU64 (digits z) = int_lit TI64 (digits z).
Proof. intros H. destruct (proj2 (digits_head z) H) as [r ->]. reflexivity. Qed.
Lemma int_lit_same t z : t <> TU64 \/ 0 <= z ->
  int_lit t (digits z) =
  match int_range t with
  | Some (sg, lo, hi) =>
      match parse_int sg lo hi (digits z) with
      | Some z => Some (if sg then LInt z Decimal_ t else LUInt z Decimal_ t)
      | None => None
      end
  | None => None
  end.
Proof.
  intros H. unfold int_lit.
  assert (match digits z, t with x2d :: _, TU64 => TI64 | _, _ => t end = t) as ->; [|reflexivity].
  destruct H as [H|H].
  - destruct (digits z) as [|b r]; [reflexivity|]. destruct b, t; try reflexivity. congruence.
  - pose proof (proj1 (digits_head z) H) as X. destruct (digits z) as [|b r]; [reflexivity|].
    destruct b; try reflexivity. destruct X.
Qed.
Lemma range_same t lo hi : range_of t = Some (lo, hi) ->
  exists sg, int_range t = Some (sg, lo, hi) /\ (sg = false -> lo = 0).
Proof.
  destruct t; intros [= <- <-]; eexists; (split; [reflexivity|]); intros X; try discriminate X;
    reflexivity.
Qed.
Lemma macro_integers N t z : is_some (range_of t) = true -> (t = TU64 -> 0 <= z) ->
  match int_lit t (digits z) with
  | Some l => in_range t z = true /\ meaning N t (DLit l) = Some (VInt z) /\ written_lit l = true
  | None => in_range t z = false
  end.
Proof.
  intros K P. destruct (range_of t) as [[lo hi]|] eqn:E; [|discriminate].
  destruct (range_same _ _ _ E) as (sg & A & B).
  assert (t = TU64 \/ t <> TU64) as D by (destruct t; auto; right; discriminate).
  rewrite int_lit_same by (destruct D; [right; auto|left; assumption]). rewrite A.
  unfold in_range. rewrite E.
  assert (sg = true \/ 0 <= z \/ (sg = false /\ z < 0)) as [S_'|[S_'|[-> S_']]]
    by (destruct sg; [auto|lia]).
  - rewrite parse_digits by auto. destruct ((lo <=? z) && (z <=? hi)) eqn:R; [|reflexivity].
    subst sg. split; [reflexivity|]. split; [|reflexivity].
    destruct t; try discriminate E; cbn [meaning]; rewrite ty_eqb_rfl; unfold in_range; rewrite E, R;
      reflexivity.
  - rewrite parse_digits by auto. destruct ((lo <=? z) && (z <=? hi)) eqn:R; [|reflexivity].
    split; [reflexivity|]. split; [|destruct sg; cbn [written_lit]; try reflexivity; lia].
    destruct t; try discriminate E; destruct sg; cbn [meaning]; rewrite ty_eqb_rfl; unfold in_range;
      rewrite E, R; reflexivity.
  - rewrite parse_negative by exact S_'. rewrite (B eq_refl).
    rewrite (proj2 (Z.leb_gt _ _)) by exact S_'. reflexivity.
Qed.
