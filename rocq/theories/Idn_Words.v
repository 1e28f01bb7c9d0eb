(** The words found in a name. *)
From Verif Require Import Idn_Model Idn_Spec.

(** * Characters *)
Ltac every_char c := destruct c as [[] [] [] [] [] [] [] []]; vm_compute; auto; try discriminate; try tauto.
Lemma lower_not_upper c : is_lower c = true -> is_upper c = false.
Proof. every_char c. Qed.
Lemma lower_not_digit c : is_lower c = true -> is_digit c = false.
Proof. every_char c. Qed.
Lemma upper_not_digit c : is_upper c = true -> is_digit c = false.
Proof. every_char c. Qed.
Lemma upper_not_lower c : is_upper c = true -> is_lower c = false.
Proof. every_char c. Qed.
Lemma digit_not_upper c : is_digit c = true -> is_upper c = false.
Proof. every_char c. Qed.
Lemma digit_not_lower c : is_digit c = true -> is_lower c = false.
Proof. every_char c. Qed.
Lemma small_not_upper c : small c -> is_upper c = false.
Proof. intros [H | H]; [now apply lower_not_upper | now apply digit_not_upper]. Qed.
Lemma small_alnum c : small c -> is_alnum c = true.
Proof. unfold small, is_alnum. intros [-> | ->]; now rewrite ?orb_true_r. Qed.
Lemma upper_alnum c : is_upper c = true -> is_alnum c = true.
Proof. unfold is_alnum. intros ->. now rewrite orb_true_r. Qed.
Lemma to_lower_small c : small c -> to_lower c = c.
Proof. intros H. unfold to_lower. now rewrite (small_not_upper _ H). Qed.
Lemma to_lower_lower c : to_lower (to_lower c) = to_lower c.
Proof. every_char c. Qed.
Lemma to_lower_upper c : to_lower (to_upper c) = to_lower c.
Proof. every_char c. Qed.
Lemma to_upper_upper c : to_upper (to_upper c) = to_upper c.
Proof. every_char c. Qed.
Lemma to_upper_lower c : to_upper (to_lower c) = to_upper c.
Proof. every_char c. Qed.
Lemma to_upper_of_upper c : is_upper c = true -> to_upper c = c.
Proof. every_char c. Qed.
Lemma alnum_lower c : is_alnum (to_lower c) = is_alnum c.
Proof. every_char c. Qed.
Lemma alnum_upper c : is_alnum (to_upper c) = is_alnum c.
Proof. every_char c. Qed.
Lemma alnum_lower_small c : is_alnum c = true -> small (to_lower c).
Proof. unfold small. every_char c. Qed.
Lemma alnum_upper_big c : is_alnum c = true -> is_upper (to_upper c) = true \/ is_digit (to_upper c) = true.
Proof. every_char c. Qed.
Lemma letter_upper c : letter c -> is_upper (to_upper c) = true.
Proof. unfold letter. intros [H | H]; revert H; every_char c. Qed.
Lemma letter_lower c : letter c -> is_lower (to_lower c) = true.
Proof. unfold letter. intros [H | H]; revert H; every_char c. Qed.
Lemma lower_letter c : is_lower c = true -> letter c.
Proof. now left. Qed.
Lemma letter_not_digit c : letter c -> ~ digit c.
Proof.
  unfold digit. intros [H | H] D.
  - now rewrite (lower_not_digit _ H) in D.
  - now rewrite (upper_not_digit _ H) in D.
Qed.
Lemma letter_alnum c : letter c -> is_alnum c = true.
Proof. unfold is_alnum. intros [-> | ->]; now rewrite ?orb_true_r. Qed.
Lemma alnum_cases c : is_alnum c = true -> letter c \/ digit c.
Proof.
  unfold is_alnum, letter, digit. intros H. apply orb_prop in H as [H | H]; [|auto].
  apply orb_prop in H as [H | H]; auto.
Qed.
Lemma to_upper_letter_inv c : is_alnum c = true -> is_upper (to_upper c) = true -> letter c.
Proof. unfold letter. every_char c. Qed.

(** * Pieces and words *)
Lemma piece_step m word c d l :
  piece_words m word (c :: d :: l) =
  let m' := if is_lower c then Lowercase else if is_upper c then Uppercase else m in
  if mode_eqb m' Lowercase && is_upper d then (word ++ [c]) :: piece_words Boundary [] (d :: l)
  else if mode_eqb m Uppercase && is_upper c && is_lower d then
    word :: piece_words Boundary [c] (d :: l)
  else piece_words m' (word ++ [c]) (d :: l).
Proof. reflexivity. Qed.
Lemma piece_words_concat : forall l m word, l <> [] -> concat (piece_words m word l) = word ++ l.
Proof.
  induction l as [|c l IH]; intros m word H; [contradiction|].
  destruct l as [|d l]; [cbn; now rewrite app_nil_r|].
  rewrite piece_step; cbv zeta. set (m' := if is_lower c then _ else _). clearbody m'.
  destruct (mode_eqb m' Lowercase && is_upper d).
  - cbn [concat]. rewrite IH by discriminate. now rewrite <- app_assoc.
  - destruct (mode_eqb m Uppercase && is_upper c && is_lower d).
    + cbn [concat]. now rewrite IH by discriminate.
    + rewrite IH by discriminate. now rewrite <- app_assoc.
Qed.
Lemma piece_concat l : concat (piece_words Boundary [] l) = l.
Proof. destruct l; [reflexivity|]. now rewrite piece_words_concat by discriminate. Qed.

Lemma pieces_alnum : forall l p, Forall (fun c => is_alnum c = true) p ->
  Forall (Forall (fun c => is_alnum c = true)) (pieces p l).
Proof.
  induction l as [|c l IH]; intros p P; cbn [pieces]; [now repeat constructor|].
  destruct (is_alnum c) eqn:E.
  - apply IH. apply Forall_app. auto.
  - constructor; [assumption | now apply IH].
Qed.
Lemma pieces_concat : forall l p, concat (pieces p l) = p ++ filter is_alnum l.
Proof.
  induction l as [|c l IH]; intros p; cbn [pieces filter]; [reflexivity|].
  destruct (is_alnum c).
  - now rewrite IH, <- app_assoc.
  - cbn [concat]. now rewrite IH.
Qed.
Lemma words_concat n : concat (words n) = filter is_alnum n.
Proof.
  unfold words. rewrite flat_map_concat_map.
  transitivity (concat (pieces [] n)); [|apply pieces_concat].
  induction (pieces [] n) as [|p ps IH]; [reflexivity|].
  cbn [map concat]. rewrite concat_app, IH. f_equal. apply piece_concat.
Qed.
Lemma words_alnum n : Forall (Forall (fun c => is_alnum c = true)) (words n).
Proof.
  assert (A : Forall (fun c => is_alnum c = true) (concat (words n))).
  { rewrite words_concat. apply Forall_forall. intros c H. now apply filter_In in H. }
  now apply Forall_concat.
Qed.

(** No word is empty, and only the first word of a piece may start with something else than a
    capital. *)
Definition starts_upper (w : text) : Prop := exists c r, w = c :: r /\ is_upper c = true.
Lemma piece_words_shape : forall l m word,
  (m = Uppercase -> word <> []) ->
  match piece_words m word l with
  | [] => l = []
  | w :: ws =>
      (exists r, w = word ++ r /\ (r = [] -> word <> []) /\
        (word = [] -> exists c r', r = c :: r' /\ exists l', l = c :: l')) /\
      Forall starts_upper ws
  end.
Proof.
  induction l as [|c l IH]; intros m word M; [reflexivity|].
  destruct l as [|d l].
  { cbn. split; [|constructor]. exists [c]. repeat split; [discriminate|]. intros _.
    exists c, []. split; [reflexivity | now exists []]. }
  rewrite piece_step; cbv zeta. set (m' := if is_lower c then _ else _). clearbody m'.
  destruct (mode_eqb m' Lowercase && is_upper d) eqn:E1.
  - apply andb_prop in E1 as [_ D].
    split.
    + exists [c]. repeat split; [discriminate|]. intros _. exists c, []. split; [reflexivity | eauto].
    + specialize (IH Boundary [] ltac:(discriminate)).
      destruct (piece_words Boundary [] (d :: l)) as [|w ws]; [constructor|].
      destruct IH as [(r & -> & _ & H) F]. constructor; [|assumption].
      destruct (H eq_refl) as (c' & r' & -> & l' & L). injection L as <- <-.
      exists d, r'. auto.
  - destruct (mode_eqb m Uppercase && is_upper c && is_lower d) eqn:E2.
    + apply andb_prop in E2 as [E2 _]. apply andb_prop in E2 as [E2 U].
      assert (m = Uppercase) as -> by (destruct m; try discriminate; reflexivity).
      specialize (M eq_refl). split.
      * exists []. rewrite app_nil_r. repeat split; auto. intros ->. contradiction.
      * specialize (IH Boundary [c] ltac:(discriminate)).
        destruct (piece_words Boundary [c] (d :: l)) as [|w ws]; [constructor|].
        destruct IH as [(r & -> & _ & _) F]. constructor; [|assumption]. exists c, r. auto.
    + specialize (IH m' (word ++ [c]) ltac:(intros _; now destruct word)).
      destruct (piece_words m' (word ++ [c]) (d :: l)) as [|w ws]; [discriminate|].
      destruct IH as [(r & -> & _ & _) F]. split; [|assumption].
      exists (c :: r). rewrite <- app_assoc. repeat split; [discriminate|].
      intros _. exists c, r. eauto.
Qed.

Lemma words_nonempty n : Forall (fun w => w <> []) (words n).
Proof.
  unfold words. apply Forall_flat_map. apply Forall_forall. intros p _.
  pose proof (piece_words_shape p Boundary [] ltac:(discriminate)) as S.
  destruct (piece_words Boundary [] p) as [|w ws]; [constructor|].
  destruct S as [(r & -> & H & _) F]. constructor.
  - destruct r; [|discriminate]. now specialize (H eq_refl).
  - eapply Forall_impl; [|exact F]. now intros ? (? & ? & -> & _).
Qed.

(** * Words of names in particular styles *)
Definition no_upper (w : text) : Prop := Forall (fun c => is_upper c = false) w.
Definition no_lower (w : text) : Prop := Forall (fun c => is_lower c = false) w.
Lemma piece_no_upper : forall w m word, w <> [] -> no_upper w -> piece_words m word w = [word ++ w].
Proof.
  induction w as [|c w IH]; intros m word N F; [contradiction|].
  destruct w as [|d w]; [reflexivity|].
  inversion F as [|? ? C F']; subst. inversion F' as [|? ? D _]; subst.
  rewrite piece_step; cbv zeta. rewrite C, D, !andb_false_r. cbn [andb].
  rewrite IH by (assumption || discriminate). now rewrite <- app_assoc.
Qed.
Lemma piece_no_lower : forall w m word, m <> Lowercase -> w <> [] -> no_lower w ->
  piece_words m word w = [word ++ w].
Proof.
  induction w as [|c w IH]; intros m word M N F; [contradiction|].
  destruct w as [|d w]; [reflexivity|].
  inversion F as [|? ? C F']; subst. inversion F' as [|? ? D _]; subst.
  rewrite piece_step; cbv zeta. rewrite C, D, !andb_false_r.
  replace (mode_eqb (if is_upper c then Uppercase else m) Lowercase) with false
    by (destruct (is_upper c), m; try reflexivity; contradiction).
  cbn [andb]. rewrite IH; [now rewrite <- app_assoc | | discriminate | assumption].
  destruct (is_upper c); [discriminate | assumption].
Qed.
Lemma pieces_alnum_app : forall w p l, Forall (fun c => is_alnum c = true) w ->
  pieces p (w ++ l) = pieces (p ++ w) l.
Proof.
  induction w as [|c w IH]; intros p l F; cbn [app pieces]; [now rewrite app_nil_r|].
  inversion F; subst. rewrite H1, IH by assumption. now rewrite <- app_assoc.
Qed.
Lemma pieces_join : forall ws, ws <> [] -> Forall (Forall (fun c => is_alnum c = true)) ws ->
  pieces [] (join (t "_") ws) = ws.
Proof.
  induction ws as [|w ws IH]; intros N F; [contradiction|].
  inversion F; subst. destruct ws as [|v ws].
  - cbn [join]. rewrite <- (app_nil_r w) at 1. now rewrite pieces_alnum_app.
  - change (join (t "_") (w :: v :: ws)) with (w ++ "_"%char :: join (t "_") (v :: ws)).
    rewrite pieces_alnum_app by assumption. cbn [pieces app].
    change (is_alnum "_"%char) with false. cbn iota. now rewrite IH.
Qed.
Lemma flat_map_single {A} (f : A -> list A) l : Forall (fun x => f x = [x]) l -> flat_map f l = l.
Proof. induction 1 as [|x l H _ IH]; [reflexivity|]. cbn. now rewrite H, IH. Qed.

Lemma words_join_no_upper ws :
  Forall (fun w => w <> [] /\ Forall small w) ws -> words (join (t "_") ws) = ws.
Proof.
  intros F. destruct ws as [|w ws]; [reflexivity|]. unfold words. rewrite pieces_join.
  - apply flat_map_single. eapply Forall_impl; [|exact F]. intros v [N S].
    rewrite piece_no_upper; [reflexivity | assumption|].
    eapply Forall_impl; [|exact S]. apply small_not_upper.
  - discriminate.
  - eapply Forall_impl; [|exact F]. intros v [_ S]. eapply Forall_impl; [|exact S]. apply small_alnum.
Qed.
Lemma words_join_no_lower ws :
  Forall (fun w => w <> [] /\ Forall (fun c => is_alnum c = true) w /\ no_lower w) ws ->
  words (join (t "_") ws) = ws.
Proof.
  intros F. destruct ws as [|w ws]; [reflexivity|]. unfold words. rewrite pieces_join.
  - apply flat_map_single. eapply Forall_impl; [|exact F]. intros v (N & _ & S).
    now rewrite piece_no_lower.
  - discriminate.
  - eapply Forall_impl; [|exact F]. now intros v (_ & A & _).
Qed.

(** Small letters and digits, one of them a letter or one seen before, and then a capital. *)
Lemma piece_small_upper : forall r m word u l,
  r <> [] -> Forall small r -> is_upper u = true -> m = Lowercase \/ has_lower r ->
  piece_words m word (r ++ u :: l) = (word ++ r) :: piece_words Boundary [] (u :: l).
Proof.
  induction r as [|c r IH]; intros m word u l N F U H; [contradiction|].
  inversion F as [|? ? C F']; subst.
  destruct r as [|d r].
  - cbn [app]; rewrite piece_step; cbv zeta. rewrite U.
    replace (mode_eqb (if is_lower c then Lowercase else if is_upper c then Uppercase else m) Lowercase)
      with true; [reflexivity|].
    destruct H as [-> | (x & [<- | []] & L)]; [|now rewrite L].
    rewrite (small_not_upper _ C). now destruct (is_lower c).
  - inversion F' as [|? ? D _]; subst.
    cbn [app]; rewrite piece_step; cbv zeta. rewrite (small_not_upper _ D), (small_not_upper _ C), !andb_false_r.
    cbn [andb].
    change (d :: r ++ u :: l) with ((d :: r) ++ u :: l).
    rewrite IH; [now rewrite <- app_assoc | discriminate | assumption | assumption|].
    destruct (is_lower c) eqn:L; [now left|].
    destruct H as [-> | (x & [<- | I] & X)]; [now left | congruence | right; now exists x].
Qed.
(** Digits after a capital, and then a capital with a small letter. *)
Lemma piece_digits_upper : forall r word u d l,
  Forall digit r -> is_upper u = true -> is_lower d = true ->
  piece_words Uppercase word (r ++ u :: d :: l) = (word ++ r) :: piece_words Boundary [u] (d :: l).
Proof.
  induction r as [|c r IH]; intros word u d l F U D.
  - cbn [app]; rewrite piece_step; cbv zeta. rewrite U, D, (lower_not_upper _ D), andb_false_r, app_nil_r.
    reflexivity.
  - inversion F as [|? ? C F']; subst.
    assert (NU : is_upper c = false) by now apply digit_not_upper.
    assert (NL : is_lower c = false) by now apply digit_not_lower.
    destruct r as [|e r].
    + specialize (IH (word ++ [c]) u d l F' U D). cbn [app] in *.
      rewrite (piece_step _ _ c). cbv zeta. rewrite NU, NL. cbn [mode_eqb andb].
      rewrite IH. now rewrite app_nil_r.
    + inversion F' as [|? ? E _]; subst.
      cbn [app]; rewrite piece_step; cbv zeta. rewrite NU, NL. cbn [mode_eqb andb].
      change (e :: r ++ u :: d :: l) with ((e :: r) ++ u :: d :: l).
      rewrite IH by assumption. now rewrite <- app_assoc.
Qed.
Lemma piece_restart u d l : is_upper u = true -> is_lower d = true ->
  piece_words Boundary [u] (d :: l) = piece_words Boundary [] (u :: d :: l).
Proof.
  intros U D. rewrite (piece_step Boundary []). cbv zeta.
  rewrite U, (upper_not_lower _ U). cbn [mode_eqb andb app].
  destruct l as [|e l]; [reflexivity|].
  rewrite !piece_step. cbv zeta. rewrite D, (lower_not_upper _ D), !andb_false_r. reflexivity.
Qed.
Lemma small_digits r : Forall small r -> ~ has_lower r -> Forall digit r.
Proof.
  intros F N. apply Forall_forall. intros c I. rewrite Forall_forall in F.
  destruct (F c I) as [L | D]; [|exact D]. contradict N. now exists c.
Qed.
Lemma has_lower_dec r : has_lower r \/ ~ has_lower r.
Proof.
  destruct (existsb is_lower r) eqn:E.
  - left. apply existsb_exists in E. exact E.
  - right. intros (c & I & L). rewrite <- not_true_iff_false in E. apply E. apply existsb_exists.
    now exists c.
Qed.
Lemma piece_camel : forall ws, Forall camel_word ws -> spaced ws ->
  piece_words Boundary [] (concat ws) = ws.
Proof.
  induction ws as [|w ws IH]; intros F S; [reflexivity|].
  inversion F as [|? ? (c & r & -> & U & R) F']; subst.
  destruct ws as [|v ws].
  - cbn [concat]. rewrite app_nil_r.
    destruct r as [|d r]; [reflexivity|].
    inversion R as [|? ? D _]; subst.
    rewrite piece_step; cbv zeta. rewrite U, (upper_not_lower _ U). cbn [mode_eqb andb].
    rewrite piece_no_upper; [reflexivity | discriminate|].
    eapply Forall_impl; [|exact R]. apply small_not_upper.
  - destruct S as [H S]. specialize (IH F' S).
    inversion F' as [|? ? (u & q & -> & U' & Q) F'']; subst.
    cbn [concat app] in *.
    rewrite <- IH.
    destruct r as [|d r].
    + destruct H as [(x & [<- | []] & L) | (a & b & q' & E & L)].
      { now rewrite (upper_not_lower _ U) in L. }
      injection E as <- ->.
      cbn [app]. change ([c] ++ ?x) with (c :: x).
      rewrite <- (piece_restart u b _ U' L), (piece_step _ _ c). cbv zeta.
      rewrite U, (upper_not_lower _ U). cbn [mode_eqb andb].
      exact (piece_digits_upper [] [c] u b _ (Forall_nil _) U' L).
    + inversion R as [|? ? D _]; subst.
      cbn [app]; rewrite piece_step; cbv zeta. rewrite U, (upper_not_lower _ U). cbn [mode_eqb andb].
      change ([] ++ [c]) with [c].
      change (d :: r ++ u :: q ++ concat ws) with ((d :: r) ++ u :: q ++ concat ws).
      destruct (has_lower_dec (d :: r)) as [L | L].
      * rewrite piece_small_upper; auto. discriminate.
      * destruct H as [(x & [<- | I] & X) | (a & b & q' & E & X)].
        -- now rewrite (upper_not_lower _ U) in X.
        -- exfalso. apply L. now exists x.
        -- injection E as <- ->. change ((b :: q') ++ concat ws) with (b :: q' ++ concat ws).
           rewrite piece_digits_upper; auto using small_digits.
           rewrite piece_restart by assumption. reflexivity.
Qed.
Lemma camel_word_alnum w : camel_word w -> Forall (fun c => is_alnum c = true) w.
Proof.
  intros (c & r & -> & U & R). constructor; [now apply upper_alnum|].
  eapply Forall_impl; [|exact R]. apply small_alnum.
Qed.
Lemma words_camel ws n : camel_of ws n -> words n = ws.
Proof.
  intros (N & F & S & ->). unfold words.
  rewrite <- (app_nil_r (concat ws)), pieces_alnum_app.
  - cbn [app pieces flat_map]. rewrite !app_nil_r. now apply piece_camel.
  - apply Forall_concat. eapply Forall_impl; [|exact F]. apply camel_word_alnum.
Qed.
Lemma words_snake ws n : snake_of ws n -> words n = ws.
Proof. intros (N & F & ->). now apply words_join_no_upper. Qed.
Lemma words_idiomatic w ws n : words_of w ws n -> words n = ws.
Proof. destruct w; cbn; auto using words_camel, words_snake. Qed.
