(** Python's documentation strings, and the texts taken from UDL and Rust. *)
From Verif Require Import Base Meta_Types Lit_Spec Lit_Text_Proofs Doc_Spec Doc_Model Doc_Proofs.

Notation R := py_escape_doc.
Definition esc : bytes := [x5c; x22; x5c; x22; x5c; x22].

Lemma strip_some p : forall s t, strip p s = Some t -> s = p ++ t.
Proof.
  induction p as [|a p IH]; intros [|b s] t; cbn [strip app]; try discriminate; try congruence.
  destruct (byte_eqb a b) eqn:E; [|discriminate]. apply byte_eqb_true in E. subst.
  intros H. now rewrite <- (IH _ _ H).
Qed.
Lemma R_quotes t : R (quotes ++ t) = esc ++ R t.
Proof. reflexivity. Qed.
Lemma R_other c r : strip quotes (c :: r) = None -> R (c :: r) = c :: R r.
Proof. intros H. unfold py_escape_doc, replace. cbn [replace_]. rewrite H. reflexivity. Qed.
Lemma strip_quotes_app a x b : byte_eqb x22 x = false ->
  strip quotes (a ++ x :: b) = match strip quotes a with Some t => Some (t ++ x :: b) | None => None end.
Proof.
  intros N. unfold quotes. destruct a as [|p [|q [|r a]]]; cbn [app strip]; try rewrite N;
    repeat destruct (byte_eqb _ _); reflexivity.
Qed.
Section induction.
  Variable P : bytes -> Prop.
  Hypothesis Pnil : P [].
  Hypothesis Pquotes : forall t, P t -> P (quotes ++ t).
  Hypothesis Pother : forall c r, strip quotes (c :: r) = None -> P r -> P (c :: r).
  Lemma text_ind s : P s.
  Proof.
    cut (forall n s, (length s <= n)%nat -> P s); [intros H; exact (H _ s (le_n _))|].
    clear s. induction n as [|n IH]; intros s L.
    - destruct s; [exact Pnil|cbn in L; lia].
    - destruct s as [|c r]; [exact Pnil|]. destruct (strip quotes (c :: r)) as [t|] eqn:E.
      + pose proof (strip_some _ _ _ E) as K. rewrite K. apply Pquotes, IH.
        apply (f_equal (@length byte)) in K. rewrite app_length in K. cbn [length quotes] in K, L. lia.
      + apply Pother; [exact E|]. apply IH. cbn [length] in L. lia.
  Qed.
End induction.
Lemma R_lf a b : R (a ++ LF :: b) = R a ++ LF :: R b.
Proof.
  induction a as [|t IH|c r H IH] using text_ind.
  - cbn [app]. now rewrite R_other.
  - rewrite <- app_assoc, !R_quotes, IH. now rewrite <- app_assoc.
  - rewrite (R_other c r H). cbn [app]. rewrite R_other; [now rewrite IH|].
    rewrite app_comm_cons, strip_quotes_app, H; reflexivity.
Qed.
Lemma R_join ls : R (join ls) = join (map R ls).
Proof.
  induction ls as [|l ls IH]; [reflexivity|]. destruct ls as [|l' ls]; [reflexivity|].
  rewrite join_cons by discriminate. cbn [map]. rewrite (join_cons (R l)) by discriminate.
  rewrite R_lf, IH. reflexivity.
Qed.
Lemma R_blank l : blank (R l) = blank l.
Proof.
  induction l as [|t IH|c r H IH] using text_ind; [reflexivity|reflexivity|].
  rewrite R_other by assumption. unfold blank in *. cbn [forallb]. now rewrite IH.
Qed.
Lemma R_nil l : R l = [] -> l = [].
Proof.
  induction l as [|t IH|c r H IH] using text_ind; [reflexivity|discriminate|].
  rewrite R_other by assumption. discriminate.
Qed.
Lemma R_spaces n l : R (spaces n ++ l) = spaces n ++ R l.
Proof.
  induction n as [|n IH]; [reflexivity|]. unfold spaces in *. cbn [repeat app].
  rewrite R_other by reflexivity. now rewrite IH.
Qed.
Lemma R_no_lf l : no_lf l -> no_lf (R l).
Proof.
  unfold no_lf. induction l as [|t IH|c r H IH] using text_ind; intros N; [exact N| |].
  - rewrite R_quotes, in_app_iff. intros [I|I]; [vm_compute in I; intuition discriminate|].
    apply IH; [|exact I]. intros J. apply N, in_or_app. auto.
  - rewrite R_other by assumption. intros [I|I]; [apply N; now left|].
    apply IH; [|exact I]. intros J. apply N. now right.
Qed.
Lemma R_pad n l : pad (spaces n) (R l) = R (pad (spaces n) l).
Proof.
  unfold pad. rewrite R_blank, trim_spaces. destruct (blank l); [reflexivity|]. now rewrite R_spaces.
Qed.
Lemma R_pad_last n l : pad_last (spaces n) (R l) = R (pad_last (spaces n) l).
Proof.
  destruct l as [|c l]; [reflexivity|]. unfold pad_last at 2. rewrite <- R_pad.
  unfold pad_last. destruct (R (c :: l)) eqn:E; [|reflexivity]. apply R_nil in E. discriminate.
Qed.
Lemma indent_R n ls : ls <> [] -> Forall no_lf ls ->
  indent (spaces n) (R (join ls)) = R (indent (spaces n) (join ls)).
Proof.
  intros N F. destruct (snoc_cases _ N) as (r & l & ->). rewrite R_join, map_app. cbn [map].
  assert (Forall no_lf (map R r ++ [R l])) as G.
  { change [R l] with (map R [l]). rewrite <- map_app. clear -F.
    induction F; cbn [map]; constructor; auto using R_no_lf. }
  rewrite (indent_join _ _ _ F), (indent_join _ _ _ G).
  rewrite R_join, map_app. cbn [map]. rewrite R_pad_last. f_equal. f_equal.
  rewrite !map_map. apply map_ext. intros a. apply R_pad.
Qed.

(** * Where the string ends *)

Lemma after_other c r : strip quotes (c :: r) = None -> c <> x5c ->
  after_string (c :: r) = after_string r.
Proof. intros H N. cbn [after_string]. rewrite H. now rewrite byte_eqb_no. Qed.
Lemma after_escape e r : after_string (x5c :: e :: r) = after_string r.
Proof. reflexivity. Qed.
Lemma after_end rest : after_string (LF :: quotes ++ rest) = Some rest.
Proof. reflexivity. Qed.
(** What does not begin with three quotes does not after the replacement. *)
Lemma strip_R c r x b : byte_eqb x22 x = false -> strip quotes (c :: r) = None ->
  strip quotes (c :: R r ++ x :: b) = None.
Proof.
  intros N H. rewrite app_comm_cons, strip_quotes_app by exact N.
  enough (strip quotes (c :: R r) = None) as -> by reflexivity.
  unfold quotes in *. destruct r as [|d [|e r]].
  - exact H.
  - rewrite R_other by (unfold quotes; cbn [strip]; destruct (byte_eqb x22 d); reflexivity).
    exact H.
  - destruct (strip quotes (d :: e :: r)) as [t|] eqn:E.
    + apply strip_some in E. rewrite E, R_quotes. cbn [strip app esc]. destruct (byte_eqb x22 c); reflexivity.
    + rewrite R_other by exact E. cbn [strip]. cbn [strip] in H.
      destruct (byte_eqb x22 c); [|reflexivity]. destruct (byte_eqb x22 d); [|reflexivity].
      destruct (byte_eqb x22 e) eqn:Q; [discriminate H|].
      rewrite R_other; [|unfold quotes; cbn [strip]; now rewrite Q]. cbn [strip]. now rewrite Q.
Qed.
Lemma py_safe_text T rest : after_string (R T ++ LF :: quotes ++ rest) = Some rest.
Proof.
  cut (forall n T, (length T <= n)%nat -> after_string (R T ++ LF :: quotes ++ rest) = Some rest);
    [intros H; exact (H _ T (le_n _))|].
  clear T. induction n as [|n IH]; intros T L.
  - destruct T; [reflexivity|cbn in L; lia].
  - destruct T as [|c r]; [reflexivity|]. destruct (strip quotes (c :: r)) as [t|] eqn:E.
    + pose proof (strip_some _ _ _ E) as K. rewrite K, R_quotes. unfold esc. cbn [app].
      rewrite !after_escape. apply IH.
      apply (f_equal (@length byte)) in K. rewrite app_length in K. cbn [length quotes] in K, L. lia.
    + rewrite R_other by exact E. cbn [app]. cbn [length] in L.
      destruct (byte_eqb c x5c) eqn:B.
      * apply byte_eqb_true in B. subst c. destruct r as [|e r]; [reflexivity|]. cbn [length] in L.
        destruct (strip quotes (e :: r)) as [t|] eqn:Q.
        -- pose proof (strip_some _ _ _ Q) as K. rewrite K, R_quotes. unfold esc. cbn [app].
           rewrite after_escape. rewrite after_other by (try reflexivity; discriminate).
           rewrite !after_escape. apply IH.
           apply (f_equal (@length byte)) in K. rewrite app_length in K. cbn [length quotes] in K. lia.
        -- rewrite R_other by exact Q. cbn [app]. rewrite after_escape. apply IH. lia.
      * rewrite after_other.
        -- apply IH. lia.
        -- now apply strip_R.
        -- intros ->. now rewrite byte_eqb_rfl in B.
Qed.
Lemma dedent_any d : exists ls, dedent d = join ls /\ ls <> [] /\ Forall no_lf ls.
Proof.
  destruct (join_split d) as (E & N & F). exists (dedented_by (split_lines d)).
  rewrite <- E at 1. rewrite dedent_join by assumption. split; [reflexivity|]. split.
  - eapply dedented_nonnil; [apply dedented_by_ok|now apply chomp_nonnil].
  - eapply dedented_no_lf; [apply dedented_by_ok|]. apply chomp_all; [|exact F].
    intros a b H. now apply no_lf_app in H.
Qed.
Lemma py_doc_text n d rest : py_doc n (Some d) ++ rest =
  quotes ++ LF :: R (indent (spaces n) (dedent d)) ++ LF :: quotes ++ LF :: spaces n ++ rest.
Proof.
  destruct (dedent_any d) as (ls & E & N & F). unfold py_doc. rewrite E, indent_R by assumption.
  rewrite <- !app_assoc. reflexivity.
Qed.
Lemma py_safe n d rest : exists body,
  py_doc n (Some d) ++ rest = quotes ++ body /\ after_string body = Some (LF :: spaces n ++ rest).
Proof.
  rewrite py_doc_text. eexists. split; [reflexivity|].
  rewrite after_other by (try reflexivity; discriminate). apply py_safe_text.
Qed.

(** * What it says *)

Definition plain_byte (c : byte) : Prop := c <> x5c /\ c <> x0d /\ c <> x00.
Lemma long_other c r : strip quotes (c :: r) = None -> plain_byte c ->
  long_string (c :: r) = cons_to c (long_string r).
Proof.
  intros H (A & B & C). cbn [long_string]. rewrite H. cbn [existsb].
  now rewrite !byte_eqb_no.
Qed.
Lemma py_value T rest : Forall plain_byte T ->
  long_string (R T ++ LF :: quotes ++ rest) = Some (T ++ [LF], rest).
Proof.
  induction T as [|t IH|c r H IH] using text_ind; intros F.
  - reflexivity.
  - rewrite R_quotes. apply Forall_app in F. destruct F as [_ F].
    change ((esc ++ R t) ++ LF :: quotes ++ rest) with
      (x5c :: x22 :: x5c :: x22 :: x5c :: x22 :: (R t ++ LF :: quotes ++ rest)).
    change (cons_to x22 (cons_to x22 (cons_to x22 (long_string (R t ++ LF :: quotes ++ rest)))) =
            Some ((quotes ++ t) ++ [LF], rest)).
    now rewrite IH.
  - inversion F; subst. rewrite R_other by exact H. cbn [app].
    rewrite long_other; [|now apply strip_R|assumption]. now rewrite IH.
Qed.
Lemma indent_moved n ls : ls <> [] -> Forall no_lf ls ->
  Forall (fun l => l = [] \/ blank l = false) ls ->
  indent (spaces n) (join ls) = join (map (moved n) ls).
Proof.
  intros N F C. destruct (snoc_cases _ N) as (r & l & ->). rewrite indent_join by assumption.
  apply Forall_app in C. destruct C as [C D]. apply Forall_inv in D.
  assert (forall a, a = [] \/ blank a = false -> pad (spaces n) a = moved n a) as K.
  { intros a [-> | B]; unfold pad.
    - cbn [blank forallb]. now rewrite trim_spaces.
    - rewrite B. destruct a; [discriminate B|reflexivity]. }
  rewrite map_app. cbn [map]. f_equal. f_equal.
  - clear -C K. induction C; cbn [map]; [reflexivity|]. now rewrite K, IHC.
  - f_equal. unfold pad_last. destruct l; [reflexivity|]. now apply K.
Qed.
Lemma in_join c ls : In c (join ls) -> c = LF \/ exists l, In l ls /\ In c l.
Proof.
  induction ls as [|l ls IH]; [intros []|]. destruct ls as [|l' ls].
  - cbn [join]. intros I. right. exists l. split; [now left|exact I].
  - rewrite join_cons by discriminate. rewrite in_app_iff. intros [I|[I|I]].
    + right. exists l. split; [now left|exact I].
    + auto.
    + destruct (IH I) as [J|(x & A & B)]; [auto|]. right. exists x. split; [now right|exact B].
Qed.
Lemma dedent_lines ls : ls <> [] -> Forall line ls ->
  exists ls', dedented ls ls' /\ dedent (join ls) = join ls' /\ ls' <> [] /\ Forall line ls'.
Proof.
  intros N F. assert (Forall no_lf ls) as FL by (eapply Forall_impl; [|exact F]; intros l [A _]; exact A).
  exists (dedented_by ls). pose proof (dedented_by_ok ls) as D.
  rewrite chomp_none in D by (eapply Forall_impl; [|exact F]; intros l [_ A]; exact A).
  split; [exact D|]. split; [now apply dedent_join|]. split; [now apply (dedented_nonnil _ _ D)|].
  refine (dedented_suffix ls _ line _ _ D F); [|split; intros []].
  intros a b [A B]. split; intros I; [apply A|apply B]; apply in_or_app; auto.
Qed.
Lemma py_content n ls rest : ls <> [] -> Forall line ls ->
  Forall (Forall (fun c => c <> x5c /\ c <> x00)) ls ->
  exists ls' body, dedented ls ls' /\ py_doc n (Some (join ls)) ++ rest = quotes ++ body /\
    long_string body = Some (LF :: join (map (moved n) ls') ++ [LF], LF :: spaces n ++ rest).
Proof.
  intros N F P. destruct (dedent_lines ls N F) as (ls' & D & E & N' & F').
  exists ls'. rewrite py_doc_text, E. eexists. split; [exact D|]. split; [reflexivity|].
  rewrite long_other; [|reflexivity|repeat split; discriminate].
  assert (Forall (Forall (fun c => c <> x5c /\ c <> x00)) ls') as P'.
  { refine (dedented_suffix ls _ _ _ _ D P); [|constructor]. intros a b H. now apply Forall_app in H. }
  rewrite indent_moved.
  - rewrite py_value; [reflexivity|]. apply Forall_forall. intros c I. apply in_join in I.
    destruct I as [-> | (l & A & B)]; [repeat split; discriminate|].
    apply in_map_iff in A. destruct A as (l0 & <- & A).
    rewrite Forall_forall in F', P'. pose proof (F' _ A) as [_ G]. pose proof (P' _ A) as Q.
    rewrite Forall_forall in Q. unfold moved in B. destruct l0 as [|x l0]; [destruct B|].
    apply in_app_or in B. destruct B as [B|B].
    + apply repeat_spec in B. subst. repeat split; discriminate.
    + destruct (Q _ B). repeat split; try assumption. intros ->. contradiction.
  - exact N'.
  - eapply Forall_impl; [|exact F']. intros l [A _]. exact A.
  - exact (dedented_clean _ _ D).
Qed.

(** * The texts taken from UDL and Rust *)

Lemma multispace_app w s : forallb udl_ws w = true -> multispace0 (w ++ s) = multispace0 s.
Proof.
  induction w as [|c w IH]; [reflexivity|]. cbn [forallb app multispace0]. intros H.
  apply andb_prop in H. destruct H as [A B]. change (nom_ws c) with (udl_ws c). rewrite A. auto.
Qed.
Lemma take_line l r : no_lf l -> take_until_lf (l ++ LF :: r) = Some (l, r).
Proof.
  induction l as [|c l IH]; intros H; cbn [app take_until_lf].
  - reflexivity.
  - rewrite byte_eqb_no by (intros ->; apply H; now left).
    rewrite IH; [reflexivity|]. intros I. apply H. now right.
Qed.
Lemma doc_line_one w l r : forallb udl_ws w = true -> no_lf l ->
  doc_line (udl_line w l ++ r) = Some (l, r).
Proof.
  intros A B. unfold doc_line, udl_line. rewrite <- !app_assoc, multispace_app by exact A.
  change (multispace0 (S_ "///" ++ l ++ [LF] ++ r)) with (S_ "///" ++ l ++ [LF] ++ r).
  rewrite strip_app. now apply take_line.
Qed.
Lemma doc_line_none s : no_doc_next s -> doc_line s = None.
Proof.
  intros (w & t & -> & A & B & C). unfold doc_line. rewrite multispace_app by exact A.
  assert (multispace0 t = t) as ->; [|now rewrite B].
  destruct t as [|c t]; [reflexivity|]. cbn [multispace0]. change (nom_ws c) with (udl_ws c). now rewrite C.
Qed.
Definition udl_source (wls : list (bytes * bytes)) : bytes := flat_map (fun wl => udl_line (fst wl) (snd wl)) wls.
Lemma doc_lines_all wls : forall fuel rest, (length wls <= fuel)%nat ->
  Forall (fun wl => forallb udl_ws (fst wl) = true /\ no_lf (snd wl)) wls -> no_doc_next rest ->
  doc_lines fuel (udl_source wls ++ rest) = (map snd wls, rest).
Proof.
  induction wls as [|[w l] wls IH]; intros fuel rest L F N.
  - cbn [udl_source flat_map app map]. destruct fuel; [reflexivity|]. cbn [doc_lines].
    now rewrite doc_line_none.
  - destruct fuel as [|fuel]; [cbn in L; lia|]. inversion F; subst. cbn [fst snd] in *.
    cbn [udl_source flat_map doc_lines]. rewrite <- app_assoc. cbn [fst snd].
    rewrite doc_line_one by tauto. fold (udl_source wls). rewrite IH; [reflexivity| |assumption|assumption].
    cbn [length] in L. lia.
Qed.
Lemma udl_docstring wls rest : wls <> [] ->
  Forall (fun wl => forallb udl_ws (fst wl) = true /\ no_lf (snd wl)) wls -> no_doc_next rest ->
  weedle_docstring (udl_source wls ++ rest) = Some (join (map snd wls), rest).
Proof.
  intros N F R. unfold weedle_docstring. rewrite doc_lines_all; [|clear|exact F|exact R].
  - destruct wls; [congruence|reflexivity].
  - rewrite app_length. induction wls as [|[w l] wls IH]; [cbn; lia|].
    cbn [udl_source flat_map]. unfold udl_line at 1. rewrite !app_length. fold (udl_source wls).
    cbn [length]. lia.
Qed.
Lemma trim_tight l : tight l -> trim (x20 :: l) = l.
Proof.
  intros [A B]. unfold trim, trim_end. change (drop_ws (x20 :: l)) with (drop_ws l).
  rewrite A, B. apply rev_involutive.
Qed.
Lemma rust_docstring ls : Forall tight ls -> extract_docstring (map (cons x20) ls) = join ls.
Proof.
  intros F. unfold extract_docstring. f_equal. induction F; cbn [map]; [reflexivity|].
  now rewrite trim_tight, IHF.
Qed.
Lemma udl_to_kotlin n ls : ls <> [] -> Forall line ls ->
  exists ls', dedented ls ls' /\ comment_lines (kt_doc n (convert_docstring (join ls))) = map guarded ls'.
Proof.
  intros N F. destruct (dedent_lines ls N F) as (l1 & D & E & N1 & F1). unfold convert_docstring. rewrite E.
  destruct (kt_content n l1 N1 F1) as (l2 & D2 & E2). exists l2. split; [|exact E2].
  now apply (dedented_trans _ l1).
Qed.
Lemma udl_to_python n ls rest : ls <> [] -> Forall line ls ->
  Forall (Forall (fun c => c <> x5c /\ c <> x00)) ls ->
  exists ls' body, dedented ls ls' /\ py_doc n (Some (convert_docstring (join ls))) ++ rest = quotes ++ body /\
    long_string body = Some (LF :: join (map (moved n) ls') ++ [LF], LF :: spaces n ++ rest).
Proof.
  intros N F P. destruct (dedent_lines ls N F) as (l1 & D & E & N1 & F1). unfold convert_docstring. rewrite E.
  destruct (py_content n l1 rest N1 F1) as (l2 & body & D2 & A & B).
  - refine (dedented_suffix ls _ _ _ _ D P); [|constructor]. intros a b H. now apply Forall_app in H.
  - exists l2, body. split; [|auto]. now apply (dedented_trans _ l1).
Qed.
