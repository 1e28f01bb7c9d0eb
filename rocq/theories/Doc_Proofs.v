(** Comments close where they should, and say what was written. *)
From Verif Require Import Base Meta_Types Lit_Spec Lit_Text_Proofs Doc_Spec Doc_Model.

Definition no_lf (l : bytes) : Prop := ~ In LF l.

Lemma byte_eqb_true a b : byte_eqb a b = true <-> a = b.
Proof.
  split; [|intros ->; destruct b; reflexivity]. unfold byte_eqb.
  destruct a, b; try discriminate; reflexivity.
Qed.
Lemma byte_eqb_rfl a : byte_eqb a a = true.
Proof. now apply byte_eqb_true. Qed.
Lemma byte_eqb_no a b : a <> b -> byte_eqb a b = false.
Proof. intros H. destruct (byte_eqb a b) eqn:E; [|reflexivity]. apply byte_eqb_true in E. contradiction. Qed.

(** * Lines *)

Lemma split_one l : no_lf l -> split_lines l = [l].
Proof.
  induction l as [|c l IH]; intros H; [reflexivity|]. cbn [split_lines].
  rewrite byte_eqb_no by (intros ->; apply H; now left).
  rewrite IH; [reflexivity|]. intros I. apply H. now right.
Qed.
Lemma split_app l s : no_lf l -> split_lines (l ++ LF :: s) = l :: split_lines s.
Proof.
  induction l as [|c l IH]; intros H; cbn [app split_lines].
  - now rewrite byte_eqb_rfl.
  - rewrite byte_eqb_no by (intros ->; apply H; now left).
    rewrite IH; [reflexivity|]. intros I. apply H. now right.
Qed.
Lemma join_cons l r : r <> [] -> join (l :: r) = l ++ LF :: join r.
Proof. destruct r; [congruence|reflexivity]. Qed.
Lemma split_join ls : ls <> [] -> Forall no_lf ls -> split_lines (join ls) = ls.
Proof.
  induction ls as [|l r IH]; intros N F; [congruence|]. inversion F; subst.
  destruct r as [|l' r]; [now apply split_one|].
  rewrite join_cons by discriminate. rewrite split_app by assumption.
  rewrite IH; [reflexivity|discriminate|assumption].
Qed.
Lemma join_split s : join (split_lines s) = s /\ split_lines s <> [] /\ Forall no_lf (split_lines s).
Proof.
  induction s as [|c s (A & B & C)]; cbn [split_lines].
  - repeat split; [discriminate|]. constructor; [intros []|constructor].
  - destruct (byte_eqb c LF) eqn:E.
    + apply byte_eqb_true in E. subst. rewrite join_cons by exact B. rewrite A.
      repeat split; [discriminate|]. constructor; [intros []|exact C].
    + destruct (split_lines s) as [|l ls]; [congruence|]. inversion C; subst.
      split; [|split; [discriminate|constructor; [|assumption]]].
      * destruct ls; [reflexivity|]. now rewrite join_cons by discriminate.
      * intros [I|I]; [|now apply H1]. subst. now rewrite byte_eqb_rfl in E.
Qed.
Lemma join_app a b : a <> [] -> b <> [] -> join (a ++ b) = join a ++ LF :: join b.
Proof.
  induction a as [|l a IH]; intros NA NB; [congruence|]. destruct a as [|l' a].
  - cbn [app]. now apply join_cons.
  - cbn [app]. rewrite (join_cons l (l' :: a)) by discriminate.
    change (l' :: a ++ b) with ((l' :: a) ++ b).
    rewrite join_cons by discriminate. rewrite IH by (try discriminate; assumption).
    now rewrite <- app_assoc.
Qed.
Lemma snoc_cases {A} (l : list A) : l <> [] -> exists r x, l = r ++ [x].
Proof. intros H. destruct (exists_last H) as (r & x & E). eauto. Qed.
Lemma drop_last_cons l r : r <> [] -> drop_last_empty (l :: r) = l :: drop_last_empty r.
Proof. destruct r; [congruence|reflexivity]. Qed.
Lemma drop_last_snoc ls l : drop_last_empty (ls ++ [l]) =
  match l with [] => ls | _ => ls ++ [l] end.
Proof.
  induction ls as [|x ls IH]; cbn [app].
  - destruct l; reflexivity.
  - rewrite drop_last_cons by (destruct ls; discriminate). rewrite IH. destruct l; reflexivity.
Qed.
Lemma ends_app s c : ends_with_lf (s ++ [c]) = byte_eqb c LF.
Proof. unfold ends_with_lf. now rewrite rev_app_distr. Qed.
(** A text ends with a line end if its last line is empty. *)
Lemma ends_join ls l : Forall no_lf (ls ++ [l]) ->
  ends_with_lf (join (ls ++ [l])) = match l, ls with [], _ :: _ => true | _, _ => false end.
Proof.
  intros F. destruct ls as [|x ls].
  - cbn [app join]. destruct (list_eq_dec Byte.byte_eq_dec l []) as [->|N]; [reflexivity|].
    destruct (snoc_cases l N) as (r & c & ->). rewrite ends_app.
    apply Forall_inv in F. rewrite byte_eqb_no by (intros ->; apply F, in_or_app; right; now left).
    destruct (r ++ [c]); reflexivity.
  - rewrite join_app by discriminate. cbn [join].
    destruct (list_eq_dec Byte.byte_eq_dec l []) as [->|N].
    + now rewrite ends_app.
    + destruct (snoc_cases l N) as (r & c & ->). apply Forall_app in F. destruct F as [_ F].
      apply Forall_inv in F. rewrite app_comm_cons, app_assoc, ends_app.
      rewrite byte_eqb_no by (intros ->; apply F, in_or_app; right; now left).
      destruct (r ++ [c]) eqn:E; [destruct r; discriminate E|reflexivity].
Qed.

(** * Indentation *)

Definition pad (p l : bytes) : bytes := (if blank l then trim_end p else p) ++ l.
Definition pad_last (p l : bytes) : bytes := match l with [] => [] | _ => pad p l end.
Lemma indent_join p ls l : Forall no_lf (ls ++ [l]) ->
  indent p (join (ls ++ [l])) = join (map (pad p) ls ++ [pad_last p l]).
Proof.
  intros F. unfold indent, split_terminator.
  rewrite split_join by (try assumption; destruct ls; discriminate).
  rewrite drop_last_snoc, (ends_join _ _ F). destruct l as [|c l].
  - destruct ls as [|x ls]; [reflexivity|]. cbn [pad_last].
    rewrite join_app by (try discriminate). reflexivity.
  - cbn [pad_last]. rewrite app_nil_r, map_app. reflexivity.
Qed.
Lemma dedent_out f (ls : list bytes) : flat_map (fun l => f l ++ [LF]) ls = join (map f ls ++ [[]]).
Proof.
  induction ls as [|l ls IH]; [reflexivity|]. cbn [flat_map map]. rewrite IH.
  rewrite <- app_comm_cons, join_cons; [|destruct (map f ls); discriminate].
  now rewrite <- app_assoc.
Qed.
Lemma mismatch_some l : forall p q, mismatch l p = Some q ->
  (exists u, p = q ++ u) /\ (exists t, l = q ++ t).
Proof.
  induction l as [|a l IH]; intros [|b p] q; cbn [mismatch]; try discriminate.
  destruct (byte_eqb a b) eqn:E.
  - apply byte_eqb_true in E. subst. destruct (mismatch l p) as [q'|] eqn:M; [|discriminate].
    intros [= <-]. destruct (IH _ _ M) as [[u ->] [t ->]]. split; eexists; reflexivity.
  - intros [= <-]. split; eexists; reflexivity.
Qed.
Lemma mismatch_none l : forall p, mismatch l p = None ->
  (exists t, l = p ++ t) \/ (exists u, p = l ++ u).
Proof.
  induction l as [|a l IH]; intros [|b p]; cbn [mismatch]; intros H;
    [right; exists []; reflexivity|right; eexists; reflexivity|left; eexists; reflexivity|].
  destruct (byte_eqb a b) eqn:E; [|discriminate]. apply byte_eqb_true in E. subst.
  destruct (mismatch l p) eqn:M; [discriminate|]. destruct (IH _ M) as [[t ->] | [u ->]];
    [left|right]; eexists; reflexivity.
Qed.
Lemma blank_app a b : blank (a ++ b) = blank a && blank b.
Proof. apply forallb_app. Qed.
Lemma shorten_ok p l : blank p = true ->
  (exists u, p = shorten p l ++ u) /\ (blank l = false -> exists t, l = shorten p l ++ t).
Proof.
  intros B. unfold shorten. destruct (mismatch l p) as [q|] eqn:M.
  - destruct (mismatch_some _ _ _ M) as [U T]. auto.
  - split; [exists []; now rewrite app_nil_r|]. intros N.
    destruct (mismatch_none _ _ M) as [T|[u ->]]; [exact T|].
    rewrite blank_app, N in B. discriminate.
Qed.
Lemma fold_ok r : forall p, blank p = true ->
  let q := fold_left shorten r p in
  (exists u, p = q ++ u) /\ Forall (fun l => blank l = false -> exists t, l = q ++ t) r.
Proof.
  induction r as [|l r IH]; intros p B; cbn [fold_left].
  - split; [exists []; now rewrite app_nil_r|constructor].
  - destruct (shorten_ok p l B) as [[u U] T].
    assert (blank (shorten p l) = true) as B'.
    { rewrite U, blank_app in B. now apply andb_prop in B. }
    destruct (IH _ B') as [[u' U'] F]. split.
    + exists (u' ++ u). rewrite app_assoc, <- U'. exact U.
    + constructor; [|exact F]. intros N. destruct (T N) as [t E].
      exists (u' ++ t). rewrite app_assoc, <- U'. exact E.
Qed.
Lemma leading_some l : forall p, leading_ws l = Some p -> blank p = true /\ exists t, l = p ++ t.
Proof.
  induction l as [|c l IH]; intros p; cbn [leading_ws]; [discriminate|].
  destruct (is_ws c) eqn:W.
  - destruct (leading_ws l) as [q|]; [|discriminate]. intros [= <-].
    destruct (IH _ eq_refl) as [B [t ->]]. split; [|eexists; reflexivity].
    unfold blank in *. cbn [forallb]. now rewrite W.
  - intros [= <-]. split; [reflexivity|]. eexists; reflexivity.
Qed.
Lemma leading_none l : leading_ws l = None -> blank l = true.
Proof.
  unfold blank. induction l as [|c l IH]; cbn [leading_ws forallb]; [reflexivity|].
  destruct (is_ws c); [|discriminate]. destruct (leading_ws l); [discriminate|]. auto.
Qed.
Lemma find_ok ls : let (p, r) := find_prefix ls in
  blank p = true /\
  forall q, (exists u, p = q ++ u) -> Forall (fun l => blank l = false -> exists t, l = q ++ t) r ->
    Forall (fun l => blank l = false -> exists t, l = q ++ t) ls.
Proof.
  induction ls as [|l ls IH]; cbn [find_prefix]; [split; [reflexivity|constructor]|].
  destruct (leading_ws l) as [p|] eqn:L.
  - destruct (leading_some _ _ L) as [B [t E]]. split; [exact B|].
    intros q [u U] F. constructor; [|exact F]. intros _. exists (u ++ t).
    now rewrite app_assoc, <- U.
  - destruct (find_prefix ls) as [p r]. destruct IH as [B H]. split; [exact B|].
    intros q U F. constructor; [|now apply H]. intros N. rewrite (leading_none _ L) in N. discriminate.
Qed.
Definition prefix_of_lines (ls : list bytes) : bytes :=
  let (p0, r) := find_prefix ls in fold_left shorten r p0.
Lemma prefix_ok ls : let q := prefix_of_lines ls in
  blank q = true /\ Forall (fun l => blank l = false -> exists t, l = q ++ t) ls.
Proof.
  unfold prefix_of_lines. pose proof (find_ok ls) as F. destruct (find_prefix ls) as [p r].
  destruct F as [B H]. destruct (fold_ok r p B) as [U G]. cbn zeta. split; [|now apply H].
  destruct U as [u U]. rewrite U, blank_app in B. now apply andb_prop in B.
Qed.
Lemma cut_blank p l : blank l = true -> cut p l = [].
Proof. intros B. unfold cut. rewrite B. destruct (strip p l); reflexivity. Qed.
Lemma cut_other p t : blank (p ++ t) = false -> cut p (p ++ t) = t.
Proof. intros B. unfold cut. now rewrite strip_app, B. Qed.
Lemma cut_dedented ls : dedented ls (map (cut (prefix_of_lines ls)) ls).
Proof.
  destruct (prefix_ok ls) as [B F]. exists (prefix_of_lines ls). split; [exact B|].
  clear B. revert F. generalize (prefix_of_lines ls) as q. induction ls as [|l ls IH]; intros q F; cbn [map];
    constructor.
  - destruct (blank l) eqn:E; [now apply cut_blank|]. apply Forall_inv in F.
    destruct (F E) as [t ->]. now rewrite cut_other.
  - inversion F; subst. now apply IH.
Qed.
Lemma strip_end_some p s t : strip_end p s = Some t -> s = t ++ p.
Proof.
  unfold strip_end. destruct (strip (rev p) (rev s)) as [r|] eqn:E; [|discriminate].
  intros [= <-]. assert (forall q v w, strip q v = Some w -> v = q ++ w) as K.
  { clear. induction q as [|a q IH]; intros [|b v] w; cbn [strip app]; try discriminate; try congruence.
    destruct (byte_eqb a b) eqn:E; [|discriminate]. apply byte_eqb_true in E. subst.
    intros H. cbn [app]. now rewrite <- (IH _ _ H). }
  apply K in E. rewrite <- (rev_involutive s), E, rev_app_distr, rev_involutive. reflexivity.
Qed.
Lemma strip_cr_line l : ~ In x0d l -> strip_cr l = l.
Proof.
  intros H. unfold strip_cr. destruct (strip_end [x0d] l) as [r|] eqn:E; [|reflexivity].
  apply strip_end_some in E. subst. exfalso. apply H, in_or_app. right. now left.
Qed.
Lemma removelast_snoc {A} (l : list A) x : removelast (l ++ [x]) = l.
Proof. now rewrite removelast_app, app_nil_r by discriminate. Qed.
Lemma find_snoc_nil ls : fst (find_prefix (ls ++ [[]])) = fst (find_prefix ls) /\
  fold_left shorten (snd (find_prefix (ls ++ [[]]))) (fst (find_prefix (ls ++ [[]]))) =
  fold_left shorten (snd (find_prefix ls)) (fst (find_prefix ls)).
Proof.
  induction ls as [|l ls [A B]]; cbn [app find_prefix leading_ws].
  - split; reflexivity.
  - destruct (leading_ws l) as [p|]; cbn [fst snd]; [|auto].
    split; [reflexivity|]. rewrite fold_left_app. reflexivity.
Qed.
Lemma prefix_snoc_nil ls : prefix_of_lines (ls ++ [[]]) = prefix_of_lines ls.
Proof.
  unfold prefix_of_lines. pose proof (proj2 (find_snoc_nil ls)) as H.
  destruct (find_prefix ls), (find_prefix (ls ++ [[]])). exact H.
Qed.
Lemma chomp_snoc r l : chomp (r ++ [l]) = map strip_cr r ++ [l].
Proof.
  induction r as [|x r IH]; [reflexivity|]. cbn [app map]. rewrite <- IH.
  destruct r; reflexivity.
Qed.
Lemma chomp_all ls (P : bytes -> Prop) : (forall a b, P (a ++ b) -> P a) -> Forall P ls -> Forall P (chomp ls).
Proof.
  intros H F. induction F as [|l ls HL F IH]; [constructor|]. destruct ls as [|l' ls].
  - constructor; auto.
  - change (chomp (l :: l' :: ls)) with (strip_cr l :: chomp (l' :: ls)). constructor; [|exact IH].
    unfold strip_cr. destruct (strip_end [x0d] l) as [r|] eqn:E; [|exact HL].
    apply strip_end_some in E. subst. eauto.
Qed.
Lemma chomp_none ls : Forall (fun l => ~ In x0d l) ls -> chomp ls = ls.
Proof.
  intros F. induction F as [|l ls HL F IH]; [reflexivity|]. destruct ls as [|l' ls]; [reflexivity|].
  change (chomp (l :: l' :: ls)) with (strip_cr l :: chomp (l' :: ls)). now rewrite IH, strip_cr_line.
Qed.
Lemma chomp_nonnil ls : ls <> [] -> chomp ls <> [].
Proof. destruct ls as [|l [|l' ls]]; [congruence|discriminate|discriminate]. Qed.
Definition dedented_by (ls : list bytes) : list bytes := map (cut (prefix_of_lines (chomp ls))) (chomp ls).
Lemma dedent_join ls : ls <> [] -> Forall no_lf ls -> dedent (join ls) = join (dedented_by ls).
Proof.
  intros N F. destruct (snoc_cases ls N) as (r & l & ->).
  unfold dedent, lines, dedented_by. rewrite split_join by assumption.
  rewrite chomp_snoc, drop_last_snoc. rewrite (ends_join _ _ F). set (r' := map strip_cr r).
  assert (forall x (k : bytes -> bytes), (let (p0, r0) := find_prefix x in k (fold_left shorten r0 p0))
            = k (prefix_of_lines x)) as K
    by (intros x k; unfold prefix_of_lines; destruct (find_prefix x); reflexivity).
  destruct l as [|c l].
  - rewrite (K r' (fun p => if ends_with_lf (flat_map (fun l => cut p l ++ [LF]) r') &&
      negb (match r with [] => false | _ :: _ => true end)
      then removelast (flat_map (fun l => cut p l ++ [LF]) r')
      else flat_map (fun l => cut p l ++ [LF]) r')).
    rewrite !dedent_out, prefix_snoc_nil, map_app. cbn [map]. rewrite (cut_blank _ [] eq_refl).
    unfold r'. destruct r as [|x r]; [reflexivity|]. cbn [negb]. now rewrite andb_false_r.
  - rewrite (K (r' ++ [c :: l]) (fun p => if ends_with_lf (flat_map (fun l => cut p l ++ [LF]) (r' ++ [c :: l])) &&
      negb false
      then removelast (flat_map (fun l => cut p l ++ [LF]) (r' ++ [c :: l]))
      else flat_map (fun l => cut p l ++ [LF]) (r' ++ [c :: l]))).
    rewrite !dedent_out.
    set (M := map (cut _) (r' ++ [c :: l])).
    assert (M <> []) as NM.
    { unfold M. rewrite map_app. intros E. apply app_eq_nil in E. destruct E as [_ E]. discriminate E. }
    rewrite join_app by (try assumption; discriminate). cbn [join]. rewrite ends_app.
    rewrite removelast_snoc. reflexivity.
Qed.
Lemma dedented_by_ok ls : dedented (chomp ls) (dedented_by ls).
Proof. apply cut_dedented. Qed.
Lemma dedented_clean ls ls' : dedented ls ls' ->
  Forall (fun l' => l' = [] \/ blank l' = false) ls'.
Proof.
  intros (p & B & F). induction F as [|l l' ls ls' H F IH]; constructor; [|exact IH].
  destruct (blank l) eqn:E; [auto|]. subst. right. rewrite blank_app, B in E. exact E.
Qed.
Lemma dedented_suffix ls ls' (P : bytes -> Prop) : (forall a b, P (a ++ b) -> P b) -> P [] ->
  dedented ls ls' -> Forall P ls -> Forall P ls'.
Proof.
  intros H N (p & _ & F). induction F as [|l l' ls ls' E F IH]; intros G; constructor;
    inversion G; subst; auto.
  destruct (blank l); [now subst|]. subst. eauto.
Qed.
Lemma no_lf_app a b : no_lf (a ++ b) <-> no_lf a /\ no_lf b.
Proof. unfold no_lf. rewrite in_app_iff. tauto. Qed.
Lemma dedented_no_lf ls ls' : dedented ls ls' -> Forall no_lf ls -> Forall no_lf ls'.
Proof.
  apply dedented_suffix; [|intros []]. intros a b H. now apply no_lf_app in H.
Qed.
Lemma dedented_nonnil ls ls' : dedented ls ls' -> ls <> [] -> ls' <> [].
Proof. intros (p & _ & F) N E. subst. inversion F; subst. congruence. Qed.
Lemma dedented_trans a b c : dedented a b -> dedented b c -> dedented a c.
Proof.
  intros (p & B & F) (q & C & G). exists (p ++ q). split; [now rewrite blank_app, B, C|].
  revert c G. induction F as [|x y a b H F IH]; intros c G; inversion G; subst; constructor; auto.
  destruct (blank x) eqn:E.
  - subst y. match goal with H : if blank [] then _ else _ |- _ => exact H end.
  - subst x. rewrite blank_app, B in E. cbn [andb] in E.
    match goal with H : if blank y then _ else _ |- _ => rewrite E in H; subst y end.
    now rewrite app_assoc.
Qed.

(** * Stars and slashes *)

Definition pair (c e : byte) : bool :=
  (byte_eqb c x2a && byte_eqb e x2f) || (byte_eqb c x2f && byte_eqb e x2a).
Fixpoint ins (a b : byte) (s : bytes) : bytes :=
  match s with
  | [] => []
  | c :: r =>
      match r with
      | e :: _ => if byte_eqb c a && byte_eqb e b then c :: x5c :: ins a b r else c :: ins a b r
      | [] => [c]
      end
  end.
Lemma strip_two a b c r : strip [a; b] (c :: r) =
  match r with e :: r' => if byte_eqb a c && byte_eqb b e then Some r' else None | [] => None end.
Proof.
  cbn [strip]. destruct r as [|e r]; destruct (byte_eqb a c); try reflexivity.
Qed.
Lemma eqb_sym a b : byte_eqb a b = byte_eqb b a.
Proof.
  destruct (byte_eqb a b) eqn:E.
  - apply byte_eqb_true in E. subst. now rewrite byte_eqb_rfl.
  - symmetry. apply byte_eqb_no. intros ->. now rewrite byte_eqb_rfl in E.
Qed.
Lemma replace_two a b : a <> b -> forall n s, (length s <= n)%nat ->
  replace_ [a; b] [a; x5c; b] 0 s = ins a b s.
Proof.
  intros N. induction n as [|n IH]; intros s L.
  - destruct s; [reflexivity|cbn in L; lia].
  - destruct s as [|c r]; [reflexivity|]. cbn [length] in L. cbn [replace_]. rewrite strip_two.
    destruct r as [|e r]; [reflexivity|]. cbn [length] in L.
    rewrite (eqb_sym a c), (eqb_sym b e).
    change (ins a b (c :: e :: r)) with
      (if byte_eqb c a && byte_eqb e b then c :: x5c :: ins a b (e :: r) else c :: ins a b (e :: r)).
    destruct (byte_eqb c a && byte_eqb e b) eqn:Q.
    + apply andb_prop in Q. destruct Q as [Q1 Q2]. apply byte_eqb_true in Q1, Q2. subst c e.
      change (length [a; b] - 1)%nat with 1%nat. cbn [replace_]. rewrite IH by lia.
      assert (ins a b (b :: r) = b :: ins a b r) as ->; [|reflexivity].
      destruct r as [|x r]; [reflexivity|].
      change (ins a b (b :: x :: r)) with
        (if byte_eqb b a && byte_eqb x b then b :: x5c :: ins a b (x :: r) else b :: ins a b (x :: r)).
      now rewrite (byte_eqb_no b a) by congruence.
    + rewrite IH by (cbn [length]; lia). reflexivity.
Qed.
Lemma guarded_cons c r : guarded (c :: r) =
  c :: (match r with e :: _ => if pair c e then [x5c] else [] | [] => [] end) ++ guarded r.
Proof. cbn [guarded]. unfold pair. destruct r as [|e r]; [reflexivity|]. destruct (_ || _); reflexivity. Qed.
Lemma ins_cons a b c r : ins a b (c :: r) =
  c :: (match r with e :: _ => if byte_eqb c a && byte_eqb e b then [x5c] else [] | [] => [] end) ++ ins a b r.
Proof. cbn [ins]. destruct r as [|e r]; [reflexivity|]. destruct (_ && _); reflexivity. Qed.
Lemma ins_ins s : ins x2f x2a (ins x2a x2f s) = guarded s.
Proof.
  induction s as [|c s IH]; [reflexivity|]. rewrite ins_cons, guarded_cons.
  destruct s as [|e s]; [reflexivity|]. rewrite <- IH. unfold pair.
  destruct (byte_eqb c x2a && byte_eqb e x2f) eqn:Q.
  - cbn [app orb]. apply andb_prop in Q. destruct Q as [Q1 Q2]. apply byte_eqb_true in Q1, Q2. subst.
    rewrite (ins_cons x2f x2a x2a). rewrite (ins_cons x2f x2a x5c).
    rewrite (ins_cons x2a x2f x2f) at 1. reflexivity.
  - cbn [app orb]. rewrite (ins_cons x2f x2a c). rewrite (ins_cons x2a x2f e) at 1. reflexivity.
Qed.
Lemma escape_guarded s : kt_escape_doc s = guarded s.
Proof.
  unfold kt_escape_doc, replace. rewrite (replace_two x2a x2f) with (n := length s) by (try discriminate; lia).
  erewrite (replace_two x2f x2a) by (try discriminate; apply le_n). apply ins_ins.
Qed.
Lemma pair_ws c e : is_ws c = true \/ is_ws e = true -> pair c e = false.
Proof.
  destruct (pair c e) eqn:P; [|reflexivity]. unfold pair in P. apply orb_prop in P.
  destruct P as [P|P]; apply andb_prop in P; destruct P as [A B]; apply byte_eqb_true in A, B; subst;
    intros [H|H]; discriminate H.
Qed.
Lemma guarded_lf a b : guarded (a ++ LF :: b) = guarded a ++ LF :: guarded b.
Proof.
  induction a as [|c a IH]; cbn [app].
  - rewrite guarded_cons. destruct b as [|e b]; [reflexivity|]. now rewrite pair_ws by (left; reflexivity).
  - rewrite !guarded_cons, IH. destruct a as [|e a]; cbn [app].
    + now rewrite pair_ws by (right; reflexivity).
    + now rewrite app_assoc.
Qed.
Lemma guarded_join ls : guarded (join ls) = join (map guarded ls).
Proof.
  induction ls as [|l ls IH]; [reflexivity|]. destruct ls as [|l' ls]; [reflexivity|].
  rewrite join_cons by discriminate. cbn [map]. rewrite (join_cons (guarded l)) by discriminate.
  rewrite guarded_lf, IH. reflexivity.
Qed.
Lemma guarded_in c s : In c (guarded s) -> In c s \/ c = x5c.
Proof.
  induction s as [|x s IH]; [intros []|]. rewrite guarded_cons. cbn [In]. rewrite in_app_iff.
  intros [A|[A|A]]; [auto| |apply IH in A; tauto].
  destruct s as [|e s]; [destruct A|]. destruct (pair x e); [|destruct A].
  destruct A as [<-|[]]. auto.
Qed.
Lemma guarded_no_lf l : no_lf l -> no_lf (guarded l).
Proof. intros H I. apply guarded_in in I. destruct I as [I|I]; [auto|discriminate I]. Qed.
Lemma guarded_blank l : blank (guarded l) = blank l.
Proof.
  induction l as [|c l IH]; [reflexivity|]. rewrite guarded_cons. unfold blank in *. cbn [forallb].
  destruct (is_ws c) eqn:W; [|reflexivity].
  assert (match l with e :: _ => if pair c e then [x5c] else [] | [] => [] end = []) as ->; [|exact IH].
  destruct l; [reflexivity|]. now rewrite pair_ws by auto.
Qed.
Lemma guarded_prefix p : blank p = true -> forall l o, guarded l = p ++ o ->
  exists l', l = p ++ l' /\ o = guarded l'.
Proof.
  induction p as [|c p IH]; intros B l o E; cbn [app] in *.
  - exists l. auto.
  - unfold blank in B. cbn [forallb] in B. apply andb_prop in B. destruct B as [W B].
    destruct l as [|x l]; [discriminate E|]. rewrite guarded_cons in E. injection E as -> E.
    assert (match l with e :: _ => if pair c e then [x5c] else [] | [] => [] end = []) as N.
    { destruct l; [reflexivity|]. now rewrite pair_ws by auto. }
    rewrite N in E. destruct (IH B _ _ E) as (l' & -> & ->). exists l'. auto.
Qed.
Lemma dedented_guarded ls : forall outs, dedented (map guarded ls) outs ->
  exists ls', dedented ls ls' /\ outs = map guarded ls'.
Proof.
  intros outs (p & B & F).
  cut (exists ls', Forall2 (fun l l' => if blank l then l' = [] else l = p ++ l') ls ls' /\
                   outs = map guarded ls').
  { intros (ls' & G & E). exists ls'. split; [exists p; auto|exact E]. }
  revert outs F. induction ls as [|l ls IH]; intros outs F; cbn [map] in F; inversion F; subst.
  - exists []. split; [constructor|reflexivity].
  - destruct (IH _ H3) as (ls' & G & ->). rewrite guarded_blank in H1. destruct (blank l) eqn:E.
    + subst y. exists ([] :: ls'). split; [|reflexivity]. constructor; [|exact G]. now rewrite E.
    + destruct (guarded_prefix p B _ _ H1) as (l' & -> & ->). exists (l' :: ls').
      split; [|reflexivity]. constructor; [|exact G]. now rewrite E.
Qed.

(** No star next to a slash. *)
Fixpoint apart (s : bytes) : bool :=
  match s with
  | [] => true
  | c :: r => match r with e :: _ => negb (pair c e) && apart r | [] => true end
  end.
Lemma apart_cons c r : apart (c :: r) =
  match r with e :: _ => negb (pair c e) | [] => true end && apart r.
Proof. destruct r as [|e r]; [reflexivity|]. reflexivity. Qed.
Lemma pair_backslash c : pair c x5c = false /\ pair x5c c = false.
Proof.
  unfold pair. change (byte_eqb x5c x2a) with false. change (byte_eqb x5c x2f) with false.
  rewrite !andb_false_r. split; reflexivity.
Qed.
Lemma guarded_apart s : apart (guarded s) = true.
Proof.
  induction s as [|c s IH]; [reflexivity|]. rewrite guarded_cons. destruct s as [|e s]; [reflexivity|].
  destruct (pair c e) eqn:P; cbn [app].
  - rewrite apart_cons, (proj1 (pair_backslash c)). rewrite apart_cons, IH.
    rewrite guarded_cons, (proj2 (pair_backslash e)). reflexivity.
  - rewrite apart_cons, IH. rewrite guarded_cons, P. reflexivity.
Qed.
Lemma apart_app a b : apart (a ++ b) = true -> apart a = true /\ apart b = true.
Proof.
  induction a as [|c a IH]; cbn [app]; [auto|]. rewrite !apart_cons. intros H.
  apply andb_prop in H. destruct H as [H G]. destruct (IH G) as [A B]. split; [|exact B].
  rewrite A, andb_true_r. destruct a; [reflexivity|exact H].
Qed.
Lemma apart_ws a c b : is_ws c = true -> apart a = true -> apart b = true -> apart (a ++ c :: b) = true.
Proof.
  intros W. induction a as [|x a IH]; intros A B; cbn [app].
  - rewrite apart_cons, B. destruct b; [reflexivity|]. now rewrite pair_ws by auto.
  - rewrite apart_cons in A. apply andb_prop in A. destruct A as [A A'].
    rewrite apart_cons, IH by assumption. destruct a as [|e a]; cbn [app].
    + now rewrite pair_ws by auto.
    + now rewrite A.
Qed.
Lemma apart_join ls : Forall (fun l => apart l = true) ls -> apart (join ls) = true.
Proof.
  induction ls as [|l ls IH]; intros F; [reflexivity|]. inversion F; subst.
  destruct ls as [|l' ls]; [assumption|]. rewrite join_cons by discriminate.
  apply apart_ws; auto.
Qed.
Lemma closes_apart d t : forall c s, apart (t ++ [c]) = true -> closes d (t ++ c :: s) = closes d (c :: s).
Proof.
  induction t as [|x t IH]; intros c s A; [reflexivity|]. cbn [app] in *. rewrite apart_cons in A.
  apply andb_prop in A. destruct A as [P A]. rewrite <- (IH c s A). cbn [closes].
  destruct t as [|e t]; cbn [app] in *; unfold pair in P; apply negb_true_iff, orb_false_elim in P;
    destruct P as [-> ->]; reflexivity.
Qed.

(** * The comments of Kotlin and Swift *)

Lemma drop_spaces n s : drop_ws (spaces n ++ s) = drop_ws s.
Proof. induction n as [|n IH]; [reflexivity|exact IH]. Qed.
Lemma rev_spaces n : rev (spaces n) = spaces n.
Proof.
  induction n as [|n IH]; [reflexivity|]. unfold spaces in *. cbn [repeat rev]. rewrite IH.
  clear IH. induction n as [|n IH]; [reflexivity|]. cbn [repeat app]. now rewrite IH.
Qed.
Lemma trim_spaces n : trim_end (spaces n) = [].
Proof.
  unfold trim_end. rewrite rev_spaces. rewrite <- (app_nil_r (spaces n)), drop_spaces. reflexivity.
Qed.
Lemma blank_spaces n : blank (spaces n) = true.
Proof. induction n; [reflexivity|assumption]. Qed.
Lemma no_lf_spaces n : no_lf (spaces n).
Proof. intros I. apply repeat_spec in I. discriminate I. Qed.
Definition star (o : bytes) : bytes := pad (S_ " * ") o.
Definition stars (ls : list bytes) : list bytes :=
  match rev ls with
  | [] => []
  | l :: r => map star (rev r) ++ [pad_last (S_ " * ") l]
  end.
Lemma stars_snoc ls l : stars (ls ++ [l]) = map star ls ++ [pad_last (S_ " * ") l].
Proof. unfold stars. rewrite rev_app_distr. cbn [rev app]. now rewrite rev_involutive. Qed.
Lemma stars_all ls (P : bytes -> Prop) : P [] -> Forall (fun l => P (star l)) ls -> Forall P (stars ls).
Proof.
  intros N. destruct (list_eq_dec (list_eq_dec Byte.byte_eq_dec) ls []) as [->|E]; [constructor|].
  destruct (snoc_cases _ E) as (r & l & ->). intros F. apply Forall_app in F. destruct F as [F G].
  rewrite stars_snoc. apply Forall_app. split.
  - clear -F. induction F; cbn [map]; constructor; auto.
  - constructor; [|constructor]. apply Forall_inv in G. destruct l; [exact N|exact G].
Qed.
Lemma stars_nonnil ls : ls <> [] -> stars ls <> [].
Proof. intros E. destruct (snoc_cases _ E) as (r & l & ->). rewrite stars_snoc. destruct (map star r); discriminate. Qed.
Lemma no_lf_star l : no_lf l -> no_lf (star l).
Proof.
  intros H. unfold star, pad. destruct (blank l); apply no_lf_app; split; try assumption;
    vm_compute; intuition discriminate.
Qed.
Lemma indent_stars ls : ls <> [] -> Forall no_lf ls -> indent (S_ " * ") (join ls) = join (stars ls).
Proof.
  intros N F. destruct (snoc_cases _ N) as (r & l & ->). now rewrite indent_join, stars_snoc.
Qed.
Definition first_line : bytes := S_ "/**".
Definition last_line : bytes := S_ " */".
Lemma wrapped_join ls : ls <> [] ->
  S_ "/**" ++ [LF] ++ join ls ++ [LF] ++ S_ " */" = join ((first_line :: ls) ++ [last_line]).
Proof.
  intros N. rewrite join_app by discriminate. rewrite join_cons by exact N.
  rewrite <- app_assoc. reflexivity.
Qed.
(** The lines of the comment. *)
Lemma kt_doc_lines n ls : ls <> [] -> Forall no_lf ls ->
  let outs := dedented_by (map guarded ls) in
  kt_doc n (join ls) =
  join ((spaces n ++ first_line) :: map (pad (spaces n)) (stars outs) ++ [spaces n ++ last_line]).
Proof.
  intros N F outs. unfold kt_doc. rewrite escape_guarded, guarded_join.
  assert (Forall no_lf (map guarded ls)) as G.
  { clear -F. induction F; cbn [map]; constructor; auto using guarded_no_lf. }
  rewrite dedent_join; [|destruct ls; [congruence|discriminate]|exact G]. fold outs.
  assert (outs <> []) as NO.
  { eapply dedented_nonnil; [apply dedented_by_ok|]. apply chomp_nonnil. destruct ls; [congruence|discriminate]. }
  assert (Forall no_lf outs) as GO.
  { eapply dedented_no_lf; [apply dedented_by_ok|]. apply chomp_all; [|exact G].
    intros a b H. now apply no_lf_app in H. }
  rewrite indent_stars by assumption. rewrite wrapped_join by now apply stars_nonnil.
  rewrite indent_join.
  - reflexivity.
  - apply Forall_app. split; [|constructor; [vm_compute; intuition discriminate|constructor]].
    constructor; [vm_compute; intuition discriminate|]. apply stars_all; [intros []|].
    clear -GO. induction GO; constructor; auto using no_lf_star.
Qed.
Lemma spaces_app_apart n s : apart s = true -> apart (spaces n ++ s) = true.
Proof.
  intros A. induction n as [|n IH]; [exact A|]. unfold spaces in *. cbn [repeat app].
  now apply (apart_ws [] x20).
Qed.
Lemma star_apart l : (l = [] \/ blank l = false) -> apart l = true -> apart (star l) = true.
Proof.
  intros C A. unfold star, pad. destruct C as [-> | ->]; [reflexivity|].
  change (S_ " * ") with ([x20; x2a] ++ [x20]). rewrite <- app_assoc. now apply apart_ws.
Qed.
Lemma pad_apart n l : apart l = true -> apart (pad (spaces n) l) = true.
Proof.
  intros A. unfold pad. destruct (blank l).
  - now rewrite trim_spaces.
  - now apply spaces_app_apart.
Qed.
Lemma join_snoc_app ls a b : ls <> [] -> join (ls ++ [a ++ b]) = join (ls ++ [a]) ++ b.
Proof.
  intros N. rewrite !join_app by (try assumption; discriminate). cbn [join].
  now rewrite <- app_assoc.
Qed.
Lemma kt_safe n doc rest : exists body, kt_doc n doc = spaces n ++ body /\
  after_comment (body ++ rest) = Some rest.
Proof.
  destruct (join_split doc) as (E & N & F). rewrite <- E. set (ls := split_lines doc) in *. clearbody ls.
  rewrite kt_doc_lines by assumption. set (gs := chomp (map guarded ls)).
  set (outs := dedented_by (map guarded ls)).
  set (mid := map (pad (spaces n)) (stars outs)).
  assert (Forall (fun l => apart l = true) gs) as AG.
  { unfold gs. apply chomp_all; [intros a b A; now apply apart_app in A|].
    clear. induction ls as [|l ls IH]; cbn [map]; constructor; [apply guarded_apart|exact IH]. }
  assert (dedented gs outs) as D by apply dedented_by_ok.
  assert (Forall (fun l => apart l = true) outs) as AO.
  { eapply dedented_suffix; [|reflexivity|exact D|exact AG]. intros a b A. now apply apart_app in A. }
  assert (Forall (fun l => apart l = true) mid) as AM.
  { unfold mid. pose proof (dedented_clean _ _ D) as C.
    assert (Forall (fun l => apart l = true) (stars outs)) as AS.
    { apply stars_all; [reflexivity|]. clear -AO C. induction outs as [|l o IH]; constructor;
        inversion AO; inversion C; subst; auto using star_apart. }
    clear -AS. induction AS; cbn [map]; constructor; auto using pad_apart. }
  assert (join ((spaces n ++ first_line) :: mid ++ [spaces n ++ last_line]) =
          spaces n ++ S_ "/*" ++ join ([x2a] :: mid ++ [spaces n ++ last_line])) as ->.
  { rewrite !join_cons by (destruct mid; discriminate). rewrite <- !app_assoc. reflexivity. }
  eexists. split; [reflexivity|].
  unfold after_comment. rewrite <- app_assoc, strip_app.
  assert (spaces n ++ last_line = (spaces n ++ [x20]) ++ [x2a; x2f]) as ->
    by (rewrite <- app_assoc; reflexivity).
  rewrite app_comm_cons, join_snoc_app by discriminate. rewrite <- app_assoc.
  change ([x2a; x2f] ++ rest) with (x2a :: x2f :: rest).
  rewrite closes_apart; [reflexivity|].
  rewrite <- join_snoc_app by discriminate. apply apart_join. apply Forall_app. split.
  - constructor; [reflexivity|exact AM].
  - constructor; [|constructor]. rewrite <- app_assoc. now apply spaces_app_apart.
Qed.
Lemma undecorated_star n o : o = [] \/ blank o = false -> undecorated (pad (spaces n) (star o)) = o.
Proof.
  intros [-> | B]; unfold star.
  - change (pad (S_ " * ") []) with [x20; x2a]. unfold pad.
    change (blank [x20; x2a]) with false. cbn iota. unfold undecorated. rewrite drop_spaces. reflexivity.
  - unfold pad at 2. rewrite B. unfold pad. rewrite blank_app, B, andb_false_r.
    unfold undecorated. rewrite drop_spaces. reflexivity.
Qed.
Lemma undecorated_stars n outs : Forall (fun l => l = [] \/ blank l = false) outs ->
  map undecorated (map (pad (spaces n)) (stars outs)) = outs.
Proof.
  destruct (list_eq_dec (list_eq_dec Byte.byte_eq_dec) outs []) as [->|E]; [reflexivity|].
  destruct (snoc_cases _ E) as (r & l & ->). intros F. rewrite stars_snoc, !map_app.
  apply Forall_app in F. destruct F as [F G]. f_equal.
  - clear -F. induction F; cbn [map]; [reflexivity|]. now rewrite undecorated_star, IHF.
  - apply Forall_inv in G. cbn [map]. f_equal. unfold pad_last. destruct l as [|c l].
    + unfold pad. cbn [blank forallb]. now rewrite trim_spaces.
    + now apply undecorated_star.
Qed.
Lemma no_lf_pad n l : no_lf l -> no_lf (pad (spaces n) l).
Proof.
  intros H. unfold pad. destruct (blank l).
  - now rewrite trim_spaces.
  - apply no_lf_app. split; [apply no_lf_spaces|exact H].
Qed.
Lemma line_cr ls : Forall line ls -> chomp (map guarded ls) = map guarded ls.
Proof.
  intros F. apply chomp_none. induction F as [|l ls [_ H] F IH]; cbn [map]; constructor; [|exact IH].
  intros I. apply guarded_in in I. destruct I as [I|I]; [auto|discriminate I].
Qed.
Lemma kt_content n ls : ls <> [] -> Forall line ls ->
  exists ls', dedented ls ls' /\ comment_lines (kt_doc n (join ls)) = map guarded ls'.
Proof.
  intros N F. assert (Forall no_lf ls) as FL by (eapply Forall_impl; [|exact F]; intros l [A _]; exact A).
  rewrite kt_doc_lines by assumption.
  set (gs := map guarded ls). set (outs := dedented_by gs).
  assert (dedented gs outs) as D.
  { pose proof (dedented_by_ok gs) as D. unfold gs in D at 1. rewrite line_cr in D by assumption. exact D. }
  destruct (dedented_guarded ls outs D) as (ls' & D' & E). exists ls'. split; [exact D'|]. rewrite <- E.
  assert (Forall no_lf outs) as FO.
  { apply (dedented_no_lf gs); [exact D|]. unfold gs. clear -FL.
    induction FL; cbn [map]; constructor; auto using guarded_no_lf. }
  unfold comment_lines. rewrite split_join.
  - cbn [tl]. rewrite removelast_snoc. apply undecorated_stars. exact (dedented_clean _ _ D).
  - discriminate.
  - constructor.
    { apply no_lf_app. split; [apply no_lf_spaces|vm_compute; intuition discriminate]. }
    apply Forall_app. split.
    + assert (Forall no_lf (stars outs)) as FS.
      { apply stars_all; [intros []|]. clear -FO. induction FO; constructor; auto using no_lf_star. }
      clear -FS. induction FS; cbn [map]; constructor; auto using no_lf_pad.
    + constructor; [|constructor]. apply no_lf_app.
      split; [apply no_lf_spaces|vm_compute; intuition discriminate].
Qed.
