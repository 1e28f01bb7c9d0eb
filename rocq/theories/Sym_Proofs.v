(** Proofs about finding metadata. *)
From Verif Require Import Sym_Spec.

(** * Names *)
Lemma prefix_app p : forall s, prefix p s = true <-> exists r, s = (p ++ r)%string.
Proof.
  induction p as [| c p IH]; intros s.
  - split; [intros _; now exists s | intros _; now destruct s].
  - destruct s as [| d s]; [split; [discriminate | intros (r & D); discriminate D] |].
    change (prefix (String c p) (String d s)) with (if ascii_dec c d then prefix p s else false).
    destruct (ascii_dec c d) as [<- | D].
    + rewrite (IH s). split; intros (r & H); exists r; [now rewrite H | now injection H as ->].
    + split; [discriminate |]. intros (r & H). injection H as H _. congruence.
Qed.
Lemma strip_other c s : c <> "_"%char -> strip_underscore (String c s) = String c s.
Proof. intros D. destruct c as [[] [] [] [] [] [] [] []]; try reflexivity. destruct D. reflexivity. Qed.
Lemma is_metadata n : is_metadata_symbol n = true <-> metadata_name n.
Proof.
  unfold is_metadata_symbol, metadata_name. rewrite prefix_app. destruct n as [| c n].
  - cbn. split; [intros (r & D); discriminate D | intros (r & [D | D]); discriminate D].
  - destruct (Ascii.eqb_spec c "_") as [-> | D].
    + cbn [strip_underscore]. split.
      * intros (r & ->). exists r. now right.
      * intros (r & [E | E]); [discriminate E |]. injection E as ->. now exists r.
    + rewrite (strip_other _ _ D). split; intros (r & E); exists r; [now left |].
      destruct E as [E | E]; [exact E |]. injection E as E _. contradiction.
Qed.
Lemma is_metadata_false n : is_metadata_symbol n = false <-> ~ metadata_name n.
Proof. rewrite <- is_metadata. destruct (is_metadata_symbol n); split; congruence. Qed.
Lemma mem_in n l : mem n l = true <-> In n l.
Proof.
  unfold mem. rewrite existsb_exists. split.
  - intros (x & I & E). apply String.eqb_eq in E as ->. exact I.
  - intros I. exists n. split; [exact I | apply String.eqb_refl].
Qed.

(** * One file *)
Definition fine (f : bytes) (p : place) : Prop := p = Skip \/ exists n off it, p = At n off /\ data_at f off it.
Lemma extract_all_fine f ps : forall x, Forall (fine f) ps ->
  exists added, extract_all f ps x = Going (Extracted (x_items x ++ map snd added) (rev (map fst added) ++ x_names x))
    /\ NoDup (map fst added)
    /\ (forall n it, In (n, it) added -> ~ In n (x_names x) /\ exists off, In (At n off) ps /\ data_at f off it)
    /\ (forall n off, In (At n off) ps -> In n (x_names x) \/ In n (map fst added)).
Proof.
  induction ps as [| p ps IH]; intros x F; cbn [extract_all].
  - exists []. cbn. rewrite app_nil_r. split; [now destruct x |]. split; [constructor |]. split; [intros n it [] | intros n off []].
  - apply Forall_cons_iff in F as [P F]. destruct P as [-> | (n & off & it & -> & [B D])].
    + destruct (IH x F) as (added & E & N & A & C). exists added. split; [exact E |]. split; [exact N |]. split.
      * intros m i I. destruct (A m i I) as (X & o & J & K). split; [exact X |]. exists o. split; [now right | exact K].
      * intros m o [J | J]; [discriminate J | exact (C m o J)].
    + unfold extract_item. destruct (mem n (x_names x)) eqn:M.
      * apply mem_in in M. destruct (IH x F) as (added & E & N & A & C). exists added. split; [exact E |]. split; [exact N |]. split.
        -- intros m i I. destruct (A m i I) as (X & o & J & K). split; [exact X |]. exists o. split; [now right | exact K].
        -- intros m o [J | J]; [injection J as <- <-; now left | exact (C m o J)].
      * replace ((off <? 0) || (size f <? off)) with false by (symmetry; apply orb_false_intro; apply Z.ltb_ge; lia).
        rewrite D. destruct (IH (Extracted (x_items x ++ [it]) (n :: x_names x)) F) as (added & E & N & A & C). cbn [x_items x_names] in *.
        exists ((n, it) :: added). cbn [map fst snd rev]. rewrite <- !app_assoc in *. split; [exact E |]. split; [| split].
        -- constructor; [| exact N]. intros I. apply in_map_iff in I as ([m i] & Q & I). cbn in Q. subst m.
           destruct (A n i I) as (X & _). apply X. now left.
        -- intros m i [Q | I].
           ++ injection Q as <- <-. split; [intros I; apply mem_in in I; congruence |]. exists off. split; [now left | split; assumption].
           ++ destruct (A m i I) as (X & o & J & K). split; [intros Y; apply X; now right |]. exists o. split; [now right | exact K].
        -- intros m o [Q | I]; [injection Q as <- <-; right; now left |].
           destruct (C m o I) as [[<- | J] | J]; [right; now left | now left | right; now right].
Qed.
Definition place_holds (f : bytes) (ps : list place) (n : string) (it : item) : Prop := exists off, In (At n off) ps /\ data_at f off it.
Definition lists (o : object) (pairs : list (string * item)) : Prop :=
  extract o = Items (map snd pairs) /\ complete_for o pairs.
Lemma one_file f ps : Forall (fine f) ps -> (forall n a b, place_holds f ps n a -> place_holds f ps n b -> a = b) ->
  exists pairs, into_metadata (extract_all f ps empty) = Items (map snd pairs) /\ NoDup (map fst pairs)
    /\ forall n it, In (n, it) pairs <-> place_holds f ps n it.
Proof.
  intros F U. destruct (extract_all_fine f ps empty F) as (added & E & N & A & C). exists added. rewrite E. cbn.
  split; [reflexivity |]. split; [exact N |]. intros n it. split.
  - intros I. destruct (A n it I) as (_ & off & J & D). exists off. auto.
  - intros (off & J & D). destruct (C n off J) as [[] | I]. apply in_map_iff in I as ([m i] & Q & I). cbn in Q. subst m.
    destruct (A n i I) as (_ & off' & J' & D'). now rewrite (U n it i (ex_intro _ off (conj J D)) (ex_intro _ off' (conj J' D'))).
Qed.

(** * The formats *)
Lemma nth_z_some {A} (l : list A) i x : nth_z l i = Some x <-> 0 <= i /\ nth_error l (Z.to_nat i) = Some x.
Proof. unfold nth_z. destruct (Z.ltb_spec i 0); split; [discriminate | lia | auto | tauto]. Qed.
Lemma in_places {A} (g : Z -> A -> place) p : forall l i, In p (places_from g i l) <->
  exists k s, nth_error l k = Some s /\ p = g (i + Z.of_nat k) s.
Proof.
  induction l as [| a l IH]; intros i; cbn [places_from In].
  - split; [intros [] | intros ([| k] & s & D & _); discriminate D].
  - rewrite IH. split.
    + intros [<- | (k & s & E & ->)]; [exists 0%nat, a; split; [reflexivity | f_equal; lia] |].
      exists (S k), s. split; [exact E | f_equal; lia].
    + intros ([| k] & s & E & ->); cbn in E.
      * injection E as ->. left. f_equal. lia.
      * right. exists k, s. split; [exact E | f_equal; lia].
Qed.
Definition elf_index (e : elf) (i : nat) (s : elf_symbol) (k : Z) : Prop :=
  es_index s <> xindex /\ k = es_index s
  \/ es_index s = xindex /\ exists t, find sh_is_shndx (e_sections e) = Some t /\ word_at e (sh_offset t + Z.of_nat i * 4) = Some k.
Lemma elf_index_spec e i s k : elf_section_index e (Z.of_nat i) s = Some k <-> elf_index e i s k.
Proof.
  unfold elf_section_index, elf_index. destruct (Z.eqb_spec (es_index s) xindex) as [E | E].
  - split.
    + intros H. right. split; [exact E |]. destruct (find sh_is_shndx (e_sections e)) as [t |]; [| discriminate H]. eauto.
    + intros [(D & _) | (_ & t & -> & H)]; [contradiction | exact H].
  - split; [intros [= <-]; now left | intros [(_ & ->) | (D & _)]; [reflexivity | contradiction]].
Qed.
Lemma elf_place_at e i s n off : elf_place e (Z.of_nat i) s = At n off <->
  es_name s = Some n /\ metadata_name n /\ exists k sh, elf_index e i s k /\ 0 <= k
    /\ nth_error (e_sections e) (Z.to_nat k) = Some sh /\ sh_addr sh <= es_value s /\ off = sh_offset sh + (es_value s - sh_addr sh).
Proof.
  unfold elf_place. destruct (es_name s) as [m |]; [| split; [discriminate | intros (D & _); discriminate D]].
  destruct (is_metadata_symbol m) eqn:M; cbn [negb].
  - apply is_metadata in M. destruct (elf_section_index e (Z.of_nat i) s) as [k |] eqn:K.
    + apply elf_index_spec in K. destruct (nth_z (e_sections e) k) as [sh |] eqn:H.
      * apply nth_z_some in H as [H0 H1]. destruct (Z.ltb_spec (es_value s) (sh_addr sh)) as [L | L].
        -- split; [discriminate |]. intros (_ & _ & k' & sh' & K' & _ & H' & L' & _).
           apply elf_index_spec in K, K'. rewrite K in K'. injection K' as <-. rewrite H1 in H'. injection H' as <-. lia.
        -- split.
           ++ intros [= <- <-]. repeat split; auto. exists k, sh. auto.
           ++ intros (E & _ & k' & sh' & K' & _ & H' & _ & ->). injection E as <-.
              apply elf_index_spec in K, K'. rewrite K in K'. injection K' as <-. rewrite H1 in H'. now injection H' as <-.
      * split; [discriminate |]. intros (_ & _ & k' & sh' & K' & Z' & H' & _). apply elf_index_spec in K, K'. rewrite K in K'.
        injection K' as <-. rewrite (proj2 (nth_z_some _ _ _) (conj Z' H')) in H. discriminate H.
    + split; [discriminate |]. intros (_ & _ & k' & sh' & K' & _). apply elf_index_spec in K'. congruence.
  - apply is_metadata_false in M. split; [discriminate |]. intros (E & N & _). injection E as <-. contradiction.
Qed.
Lemma elf_places_hold f e n it : place_holds f (elf_places e) n it <-> elf_holds f e n it.
Proof.
  unfold place_holds, elf_places, elf_holds. split.
  - intros (off & I & D). apply in_places in I as (i & s & E & P). rewrite Z.add_0_l in P. symmetry in P.
    apply elf_place_at in P as (N & M & k & sh & K & Z0 & H & L & ->). exists i, s, k, sh. unfold elf_index in K. repeat split; auto; apply D.
  - intros (i & s & k & sh & E & N & M & K & Z0 & H & L & D). exists (sh_offset sh + (es_value s - sh_addr sh)). split; [| exact D].
    apply in_places. exists i, s. split; [exact E |]. rewrite Z.add_0_l. symmetry. apply elf_place_at.
    split; [exact N |]. split; [exact M |]. exists k, sh. auto.
Qed.
Lemma elf_fine f e : elf_sound f e -> Forall (fine f) (elf_places e).
Proof.
  intros (N & S). apply Forall_forall. intros p I. apply in_places in I as (i & s & E & ->). rewrite Z.add_0_l.
  specialize (N s (nth_error_In _ _ E)). unfold fine.
  destruct (es_name s) as [n |] eqn:Q; [| contradiction]. destruct (is_metadata_symbol n) eqn:M.
  - apply is_metadata in M. destruct (S i s n E Q M) as (k & sh & it & K & Z0 & H & L & D). right.
    exists n, (sh_offset sh + (es_value s - sh_addr sh)), it. split; [| exact D]. apply elf_place_at.
    split; [exact Q |]. split; [exact M |]. exists k, sh. auto.
  - left. unfold elf_place. now rewrite Q, M.
Qed.
Lemma pe_places_hold f xs n it : place_holds f (map pe_place xs) n it <-> pe_holds f xs n it.
Proof.
  unfold place_holds, pe_holds. split; intros (off & H).
  - destruct H as (I & D). apply in_map_iff in I as ([pn po] & P & I). unfold pe_place in P. cbn [pe_name pe_offset] in P.
    destruct pn as [m |]; [| discriminate P]. destruct (is_metadata_symbol m) eqn:M; [| discriminate P]. apply is_metadata in M.
    destruct po as [off' |]; [| discriminate P]. injection P as <- <-. exists off'. auto.
  - destruct H as (I & M & D). exists off. split; [| exact D]. apply in_map_iff. exists (PeExport (Some n) (Some off)). split; [| exact I].
    unfold pe_place. cbn. apply is_metadata in M. now rewrite M.
Qed.
Lemma pe_fine f xs : pe_sound f xs -> Forall (fine f) (map pe_place xs).
Proof.
  intros S. apply Forall_map, Forall_forall. intros x I. unfold fine, pe_place.
  destruct (pe_name x) as [n |] eqn:N; [| now left]. destruct (is_metadata_symbol n) eqn:M; [| now left].
  apply is_metadata in M. destruct (S x n I N M) as (off & it & -> & D). right. eauto.
Qed.
Lemma insert_first s l : (forall t, In t l -> ms_addr s <= ms_addr t) -> insert_section s l = s :: l.
Proof. destruct l as [| t l]; cbn; intros H; [reflexivity |]. destruct (Z.leb_spec (ms_addr s) (ms_addr t)); [reflexivity |]. specialize (H t (or_introl eq_refl)). lia. Qed.
Lemma sorted_already l : (forall i j a b, (i < j)%nat -> nth_error l i = Some a -> nth_error l j = Some b -> ms_addr a <= ms_addr b) ->
  sorted_sections l = l.
Proof.
  induction l as [| s l IH]; intros H; [reflexivity |]. cbn [sorted_sections fold_right]. fold (sorted_sections l). rewrite IH.
  - apply insert_first. intros t I. apply In_nth_error in I as (j & J). apply (H 0%nat (S j) s t); [lia | reflexivity | exact J].
  - intros i j a b L A B. apply (H (S i) (S j) a b); [lia | exact A | exact B].
Qed.
Lemma mach_places_hold f m n it : mach_sound f m -> in_address_order m -> (place_holds f (mach_places m) n it <-> mach_holds f m n it).
Proof.
  intros (S1 & S2) O'. unfold place_holds, mach_places, mach_holds. pose proof (sorted_already _ O') as Q. split.
  - intros (off & I & D). apply in_app_or in I as [I | I]; apply in_map_iff in I as (s & P & I).
    + unfold mach_symbol_place in P. rewrite Q in P.
      destruct (mn_global s) eqn:G; [| discriminate P]. destruct (mn_in_section s) eqn:T; [| discriminate P].
      destruct (is_metadata_symbol (mn_name s)) eqn:M; [| discriminate P]. apply is_metadata in M. cbn [andb] in P.
      destruct (S1 s I G T M) as (L & sec & it' & E & D').
      destruct (Z.eqb_spec (mn_sect s) 0); [lia |]. cbn [negb] in P.
      rewrite (proj2 (nth_z_some (m_sections m) (mn_sect s - 1) sec)) in P by (split; [lia | exact E]). cbn zeta in P.
      destruct (_ <? 0); [discriminate P |]. injection P as <- <-. split; [exact M |]. left. exists s, sec. repeat split; auto.
      * replace (ms_offset sec + (mn_value s - ms_addr sec)) with (ms_offset sec + mn_value s - ms_addr sec) by lia. apply D.
      * replace (ms_offset sec + (mn_value s - ms_addr sec)) with (ms_offset sec + mn_value s - ms_addr sec) by lia. apply D.
      * replace (ms_offset sec + (mn_value s - ms_addr sec)) with (ms_offset sec + mn_value s - ms_addr sec) by lia. apply D.
    + destruct s as [n' off']. unfold mach_export_place in P. cbn in P. destruct (is_metadata_symbol n') eqn:M; [| discriminate P].
      apply is_metadata in M. injection P as <- <-. split; [exact M |]. right. eauto.
  - intros (M & [(s & sec & I & N & G & T & L & E & D) | (off & I & D)]).
    + exists (ms_offset sec + (mn_value s - ms_addr sec)). split; [| exact D]. apply in_or_app. left. apply in_map_iff. exists s. split; [| exact I].
      unfold mach_symbol_place. rewrite Q, G, T. subst n. apply is_metadata in M. rewrite M. cbn [andb].
      destruct (Z.eqb_spec (mn_sect s) 0); [lia |]. cbn [negb].
      rewrite (proj2 (nth_z_some (m_sections m) (mn_sect s - 1) sec)) by (split; [lia | exact E]). cbn zeta.
      replace (ms_offset sec + mn_value s - ms_addr sec) with (ms_offset sec + (mn_value s - ms_addr sec)) by lia.
      destruct D as [D _]. destruct (Z.ltb_spec (ms_offset sec + (mn_value s - ms_addr sec)) 0); [lia | reflexivity].
    + exists off. split; [| exact D]. apply in_or_app. right. apply in_map_iff. exists (n, off). split; [| exact I].
      unfold mach_export_place. cbn. apply is_metadata in M. now rewrite M.
Qed.
Lemma mach_fine f m : mach_sound f m -> in_address_order m -> Forall (fine f) (mach_places m).
Proof.
  intros (S1 & S2) O'. pose proof (sorted_already _ O') as Q. unfold mach_places. apply Forall_app. split; apply Forall_map, Forall_forall.
  - intros s I. unfold fine, mach_symbol_place. rewrite Q.
    destruct (mn_global s) eqn:G; [| now left]. destruct (mn_in_section s) eqn:T; [| now left].
    destruct (is_metadata_symbol (mn_name s)) eqn:M; [| now left]. apply is_metadata in M. cbn [andb].
    destruct (S1 s I G T M) as (L & sec & it & E & D). destruct (Z.eqb_spec (mn_sect s) 0); [lia |]. cbn [negb].
    rewrite (proj2 (nth_z_some (m_sections m) (mn_sect s - 1) sec)) by (split; [lia | exact E]). cbn zeta.
    replace (ms_offset sec + mn_value s - ms_addr sec) with (ms_offset sec + (mn_value s - ms_addr sec)) by lia.
    destruct (Z.ltb_spec (ms_offset sec + (mn_value s - ms_addr sec)) 0); [destruct D; lia |]. right. eauto.
  - intros [n off] I. unfold fine, mach_export_place. cbn. destruct (is_metadata_symbol n) eqn:M; [| now left]. apply is_metadata in M.
    destruct (S2 n off I M) as (it & D). right. eauto.
Qed.
Lemma coff_places_hold f c n it : place_holds f (coff_places c) n it <-> coff_holds f c n it.
Proof.
  unfold place_holds, coff_places, coff_holds. destruct (c_strings c); [| split; [intros (? & [] & _) | intros (_ & D & _); discriminate D]].
  destruct (c_symbols c) as [ss |]; [| split; [intros (? & [] & _) | intros (_ & _ & ? & ? & ? & D & _); discriminate D]]. split.
  - intros (off & I & D). apply in_map_iff in I as (s & P & I). unfold coff_place in P.
    destruct (Z.leb_spec (cs_section s) 0); [discriminate P |]. destruct (cs_name s) as [m |] eqn:N; [| discriminate P].
    destruct (nth_z (c_raw c) (cs_section s - 1)) as [raw |] eqn:E; [| discriminate P]. apply nth_z_some in E as [_ E].
    destruct (is_metadata_symbol m) eqn:M; [| discriminate P]. apply is_metadata in M. injection P as <- <-.
    split; [exact M |]. split; [reflexivity |]. exists ss, s, raw. repeat split; auto; [lia | apply D ..].
  - intros (M & _ & ss' & s & raw & Q & I & N & L & E & D). injection Q as <-. exists (raw + cs_value s). split; [| exact D].
    apply in_map_iff. exists s. split; [| exact I]. unfold coff_place. destruct (Z.leb_spec (cs_section s) 0); [lia |]. rewrite N.
    rewrite (proj2 (nth_z_some (c_raw c) (cs_section s - 1) raw)) by (split; [lia | exact E]). apply is_metadata in M. now rewrite M.
Qed.
Lemma coff_fine f c : coff_sound f c -> Forall (fine f) (coff_places c).
Proof.
  intros S. unfold coff_places. destruct (c_strings c) eqn:T; [| constructor]. destruct (c_symbols c) as [ss |] eqn:Y; [| constructor].
  apply Forall_map, Forall_forall. intros s I. unfold fine, coff_place. destruct (Z.leb_spec (cs_section s) 0); [now left |].
  destruct (cs_name s) as [n |] eqn:N; [| now left]. destruct (S ss s n Y T I ltac:(lia) N) as (raw & E & D).
  rewrite (proj2 (nth_z_some (c_raw c) (cs_section s - 1) raw)) by (split; [lia | exact E]).
  destruct (is_metadata_symbol n) eqn:M; [| now left]. apply is_metadata in M. destruct (D M) as (it & K). right. eauto.
Qed.

(** * Any file *)
Lemma holds_metadata o n it : holds o n it -> metadata_name n.
Proof.
  induction 1 as [f e n it (i & s & k & sh & _ & _ & M & _) | f xs n it (off & _ & M & _) | f m n it (M & _) | f c n it (M & _) | |]; auto.
Qed.
Lemma get_map {A B} (g : A -> B) k l : get k (map (fun '(n, o) => (n, g o)) l) = option_map g (get k l).
Proof. induction l as [| [n o] l IH]; cbn; [reflexivity |]. now destruct (String.eqb k n). Qed.
Lemma get_unique {A} (k : string) (o : A) l : NoDup (map fst l) -> In (k, o) l -> get k l = Some o.
Proof.
  induction l as [| [n p] l IH]; cbn; intros N I; [destruct I |]. apply NoDup_cons_iff in N as [N1 N2].
  destruct (String.eqb_spec k n) as [-> | D].
  - destruct I as [[= ->] | I]; [reflexivity |]. destruct N1. apply in_map_iff. exists (n, o). auto.
  - destruct I as [[= -> _] | I]; [contradiction | exact (IH N2 I)].
Qed.
Lemma checked index m : In m (members_to_check index) <-> exists syms n, In (m, syms) index /\ In n syms /\ metadata_name n.
Proof.
  unfold members_to_check. rewrite nodup_In, in_map_iff. split.
  - intros ([m' syms] & <- & I). apply filter_In in I as [I E]. apply existsb_exists in E as (n & J & M). exists syms, n. rewrite <- is_metadata. auto.
  - intros (syms & n & I & J & M). exists (m, syms). split; [reflexivity |]. apply filter_In. split; [exact I |]. apply existsb_exists. exists n. rewrite is_metadata. auto.
Qed.
Definition of_members (members : list (string * object)) (names : list string) (n : string) (it : item) : Prop :=
  exists m o, In m names /\ In (m, o) members /\ holds o n it.
Lemma members_listed members names : NoDup (map fst members) ->
  (forall m, In m names -> In m (map fst members)) ->
  (forall m o, In (m, o) members -> exists pairs, lists o pairs) ->
  exists pairs, fold_right (fun n rest => append (match get n (map (fun '(n, o) => (n, extract o)) members) with Some r => r | None => Failed end) rest)
      (Items []) names = Items (map snd pairs)
    /\ forall n it, In (n, it) pairs <-> of_members members names n it.
Proof.
  intros N K L. induction names as [| m names IH]; cbn [fold_right].
  - exists []. split; [reflexivity |]. intros n it. split; [intros [] | intros (m & o & [] & _)].
  - destruct IH as (pairs & E & H); [intros k I; apply K; now right |]. rewrite E.
    specialize (K m (or_introl eq_refl)). apply in_map_iff in K as ([m' o] & Q & I). cbn in Q. subst m'.
    destruct (L m o I) as (ps & X & Y). rewrite get_map, (get_unique m o members N I). cbn [option_map]. rewrite X. cbn [append].
    exists (ps ++ pairs). rewrite map_app. split; [reflexivity |]. intros n it. rewrite in_app_iff, (Y n it), H. unfold of_members. split.
    + intros [J | (k & p & J & J' & J2)]; [exists m, o; cbn; auto | exists k, p; cbn; auto].
    + intros (k & p & [<- | J] & J' & J2); [| right; eauto]. left.
      assert (U : get m members = Some p) by (apply get_unique; assumption). rewrite (get_unique m o members N I) in U. now injection U as ->.
Qed.
Lemma all_found o : sound o -> one_item_each o -> exists pairs, lists o pairs.
Proof.
  induction 1 as [f e S | f xs S | f m S O' | f c S | a S IH | index members N I1 I2 S IH]; intros U; unfold lists.
  - destruct (one_file f (elf_places e) (elf_fine _ _ S)) as (pairs & E & _ & H).
    { intros n a b A B. apply (U n); constructor; now apply elf_places_hold. }
    exists pairs. split; [exact E |]. intros n it. rewrite H, elf_places_hold. split; [now constructor | now inversion 1].
  - destruct (one_file f (map pe_place xs) (pe_fine _ _ S)) as (pairs & E & _ & H).
    { intros n a b A B. apply (U n); constructor; now apply pe_places_hold. }
    exists pairs. split; [exact E |]. intros n it. rewrite H, pe_places_hold. split; [now constructor | now inversion 1].
  - destruct (one_file f (mach_places m) (mach_fine _ _ S O')) as (pairs & E & _ & H).
    { intros n a b A B. apply (U n); constructor; now apply mach_places_hold. }
    exists pairs. split; [exact E |]. intros n it. rewrite H, mach_places_hold by assumption. split; [now constructor | now inversion 1].
  - destruct (one_file f (coff_places c) (coff_fine _ _ S)) as (pairs & E & _ & H).
    { intros n a b A B. apply (U n); constructor; now apply coff_places_hold. }
    exists pairs. split; [exact E |]. intros n it. rewrite H, coff_places_hold. split; [now constructor | now inversion 1].
  - destruct IH as (pairs & E & H).
    { intros n x y X Y. apply (U n); apply (holds_fat [a] a); try assumption; now left. }
    exists pairs. split; [exact E |]. intros n it. rewrite (H n it). split.
    + intros X. apply (holds_fat [a] a); [now left | exact X].
    + intros X. inversion X as [| | | | ? a' ? ? I X' |]; subst. destruct I as [<- | []]. exact X'.
  - destruct (members_listed members (members_to_check index) N) as (pairs & E & H).
    + intros m C. apply checked in C as (syms & n & J & K & M). apply (I2 m syms J). eauto.
    + intros m o J. apply (IH m o J). intros n x y X Y. apply (U n); apply (holds_archive index members m o); assumption.
    + exists pairs. split; [exact E |]. intros n it. rewrite H. unfold of_members. split.
      * intros (m & o & _ & J & X). exact (holds_archive index members m o n it J X).
      * intros X. inversion X as [| | | | | ? ? m o ? ? J X']; subst. exists m, o. split; [| auto].
        apply checked. destruct (I1 m o n it J X') as (syms & A & B). exists syms, n. repeat split; auto. exact (holds_metadata o n it X').
Qed.
Lemma each_once o : single o -> sound o -> one_item_each o ->
  exists pairs, extract o = Items (map snd pairs) /\ NoDup (map fst pairs) /\ complete_for o pairs.
Proof.
  intros T S U. destruct S as [f e S | f xs S | f m S O' | f c S | |]; try contradiction.
  - destruct (one_file f (elf_places e) (elf_fine _ _ S)) as (pairs & E & N & H).
    { intros n a b A B. apply (U n); constructor; now apply elf_places_hold. }
    exists pairs. repeat split; auto; [| intros X; inversion X; subst; now apply H, elf_places_hold].
    intros I. constructor. now apply elf_places_hold, H.
  - destruct (one_file f (map pe_place xs) (pe_fine _ _ S)) as (pairs & E & N & H).
    { intros n a b A B. apply (U n); constructor; now apply pe_places_hold. }
    exists pairs. repeat split; auto; [| intros X; inversion X; subst; now apply H, pe_places_hold].
    intros I. constructor. now apply pe_places_hold, H.
  - destruct (one_file f (mach_places m) (mach_fine _ _ S O')) as (pairs & E & N & H).
    { intros n a b A B. apply (U n); constructor; now apply mach_places_hold. }
    exists pairs. repeat split; auto; [| intros X; inversion X; subst; now apply H, mach_places_hold].
    intros I. constructor. now apply mach_places_hold, H.
  - destruct (one_file f (coff_places c) (coff_fine _ _ S)) as (pairs & E & N & H).
    { intros n a b A B. apply (U n); constructor; now apply coff_places_hold. }
    exists pairs. repeat split; auto; [| intros X; inversion X; subst; now apply H, coff_places_hold].
    intros I. constructor. now apply coff_places_hold, H.
Qed.
(** Nothing else gets in, whatever the file. *)
Lemma extract_all_sound f ps : forall x x', extract_all f ps x = Going x' ->
  forall it, In it (x_items x') -> In it (x_items x) \/ exists n, place_holds f ps n it.
Proof.
  induction ps as [| p ps IH]; intros x x' E it I; cbn [extract_all] in E.
  - injection E as <-. now left.
  - assert (W : forall n, place_holds f ps n it -> place_holds f (p :: ps) n it) by (intros n (off & A & B); exists off; split; [now right | exact B]).
    destruct p as [| | | n off]; try discriminate E.
    + destruct (IH _ _ E it I) as [J | (n & J)]; eauto.
    + unfold extract_item in E. destruct (mem n (x_names x)).
      * destruct (IH _ _ E it I) as [J | (m & J)]; eauto.
      * destruct ((off <? 0) || (size f <? off)) eqn:B; [discriminate E |]. destruct (item_at f off) as [i |] eqn:A; [| discriminate E].
        destruct (IH _ _ E it I) as [J | (m & J)]; [| eauto]. cbn in J. apply in_app_or in J as [J | [<- | []]]; [now left |].
        right. exists n, off. split; [now left |]. apply orb_false_elim in B as [B1 B2]. apply Z.ltb_ge in B1, B2. split; [lia | exact A].
Qed.
Lemma elf_nothing_else f e l it : extract (OElf f e) = Items l -> In it l -> exists n, holds (OElf f e) n it.
Proof.
  cbn [extract]. destruct (extract_all f (elf_places e) empty) as [x | |] eqn:E; [| discriminate | discriminate]. intros [= <-] I.
  destruct (extract_all_sound _ _ _ _ E it I) as [[] | (n & H)]. exists n. constructor. now apply elf_places_hold.
Qed.
Lemma pe_nothing_else f xs l it : extract (OPe f xs) = Items l -> In it l -> exists n, holds (OPe f xs) n it.
Proof.
  cbn [extract]. destruct (extract_all f (map pe_place xs) empty) as [x | |] eqn:E; [| discriminate | discriminate]. intros [= <-] I.
  destruct (extract_all_sound _ _ _ _ E it I) as [[] | (n & H)]. exists n. constructor. now apply pe_places_hold.
Qed.
Lemma coff_nothing_else f c l it : extract (OCoff f c) = Items l -> In it l -> exists n, holds (OCoff f c) n it.
Proof.
  cbn [extract]. destruct (extract_all f (coff_places c) empty) as [x | |] eqn:E; [| discriminate | discriminate]. intros [= <-] I.
  destruct (extract_all_sound _ _ _ _ E it I) as [[] | (n & H)]. exists n. constructor. now apply coff_places_hold.
Qed.

(** * Each name once, in archives too *)
Lemma nodup_append (a b : list string) : NoDup a -> NoDup b -> (forall x, In x a -> ~ In x b) -> NoDup (a ++ b).
Proof.
  induction a as [| x a IH]; intros A B D; cbn [app]; [exact B |]. apply NoDup_cons_iff in A as [A1 A2]. constructor.
  - intros I. apply in_app_or in I as [I | I]; [contradiction |]. exact (D x (or_introl eq_refl) I).
  - apply IH; [exact A2 | exact B |]. intros y I. apply D. now right.
Qed.
Lemma members_once members names : NoDup (map fst members) -> NoDup names ->
  (forall m, In m names -> In m (map fst members)) ->
  (forall m o m' o' n it it', In (m, o) members -> In (m', o') members -> holds o n it -> holds o' n it' -> m = m') ->
  (forall m o, In (m, o) members -> exists pairs, lists o pairs /\ NoDup (map fst pairs)) ->
  exists pairs, fold_right (fun n rest => append (match get n (map (fun '(n, o) => (n, extract o)) members) with Some r => r | None => Failed end) rest)
      (Items []) names = Items (map snd pairs)
    /\ (forall n it, In (n, it) pairs <-> of_members members names n it) /\ NoDup (map fst pairs).
Proof.
  intros N NN K D L. induction names as [| m names IH]; cbn [fold_right].
  - exists []. split; [reflexivity |]. split; [| constructor]. intros n it. split; [intros [] | intros (m & o & [] & _)].
  - apply NoDup_cons_iff in NN as [N1 N2]. destruct IH as (pairs & E & H & V); [exact N2 | intros k I; apply K; now right |]. rewrite E.
    specialize (K m (or_introl eq_refl)). apply in_map_iff in K as ([m' o] & Q & I). cbn in Q. subst m'.
    destruct (L m o I) as (ps & (X & Y) & W). rewrite get_map, (get_unique m o members N I). cbn [option_map]. rewrite X. cbn [append].
    exists (ps ++ pairs). rewrite !map_app. split; [reflexivity |]. split.
    + intros n it. rewrite in_app_iff, H, (Y n it). unfold of_members. split.
      * intros [J | (k & p & J & J' & J2)]; [exists m, o; cbn; auto | exists k, p; cbn; auto].
      * intros (k & p & [<- | J] & J' & J2); [| right; eauto]. left.
        assert (U : get m members = Some p) by (apply get_unique; assumption). rewrite (get_unique m o members N I) in U. now injection U as ->.
    + apply nodup_append; [exact W | exact V |]. intros n A B.
      apply in_map_iff in A as ([n1 it] & Q & A). cbn in Q. subst n1. apply Y in A.
      apply in_map_iff in B as ([n1 it'] & Q & B). cbn in Q. subst n1. apply H in B as (k & p & J & J' & J2).
      apply N1. now rewrite (D m o k p n it it' I J' A J2).
Qed.
Lemma each_once_deep o : sound o -> one_item_each o -> unshared o ->
  exists pairs, extract o = Items (map snd pairs) /\ NoDup (map fst pairs) /\ complete_for o pairs.
Proof.
  intros S. induction S as [f e S | f xs S | f m S O' | f c S | a S IH | index members N I1 I2 S IH]; intros U V.
  - apply each_once; [exact I | now constructor | exact U].
  - apply each_once; [exact I | now constructor | exact U].
  - apply each_once; [exact I | now constructor | exact U].
  - apply each_once; [exact I | now constructor | exact U].
  - inversion V as [? T | ? V' |]; subst; [destruct T |]. destruct IH as (pairs & E & W & H); [| exact V' |].
    { intros n x y X Y. apply (U n); apply (holds_fat [a] a); try assumption; now left. }
    exists pairs. split; [exact E |]. split; [exact W |]. intros n it. rewrite (H n it). split.
    + intros X. apply (holds_fat [a] a); [now left | exact X].
    + intros X. inversion X as [| | | | ? a' ? ? J X' |]; subst. destruct J as [<- | []]. exact X'.
  - inversion V as [? T | | ? ? D V']; subst; [destruct T |].
    destruct (members_once members (members_to_check index) N) as (pairs & E & H & W).
    + apply NoDup_nodup.
    + intros m C. apply checked in C as (syms & n & J & K & M). apply (I2 m syms J). eauto.
    + exact D.
    + intros m o J. destruct (IH m o J) as (ps & A & B & C); [| exact (V' m o J) |].
      * intros n x y X Y. apply (U n); apply (holds_archive index members m o); assumption.
      * exists ps. split; [split |]; assumption.
    + exists pairs. split; [exact E |]. split; [exact W |]. intros n it. rewrite (H n it). unfold of_members. split.
      * intros (m & o & _ & J & X). exact (holds_archive index members m o n it J X).
      * intros X. inversion X as [| | | | | ? ? m o ? ? J X']; subst. exists m, o. split; [| auto].
        apply checked. destruct (I1 m o n it J X') as (syms & A & B). exists syms, n. repeat split; auto. exact (holds_metadata o n it X').
Qed.
