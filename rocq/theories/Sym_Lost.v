(** When reading succeeds, nothing was passed over. *)
From Verif Require Import Sym_Spec Sym_Proofs.

Lemma going_on f ps : forall x x', extract_all f ps x = Going x' ->
  (forall p, In p ps -> p <> Bad /\ p <> Panics) /\ incl (x_items x) (x_items x') /\ incl (x_names x) (x_names x')
  /\ (forall n off, In (At n off) ps -> In n (x_names x'))
  /\ (forall n, In n (x_names x') -> In n (x_names x) \/ exists it, In it (x_items x') /\ place_holds f ps n it).
Proof.
  induction ps as [| p ps IH]; intros x x' E; cbn [extract_all] in E.
  - injection E as <-. split; [intros p [] |]. split; [apply incl_refl |]. split; [apply incl_refl |]. split; [intros n off [] | intros n I; now left].
  - assert (W : forall n it, place_holds f ps n it -> place_holds f (p :: ps) n it)
      by (intros n it (off & A & B); exists off; split; [now right | exact B]).
    destruct p as [| | | n off]; try discriminate E.
    + destruct (IH _ _ E) as (P & I1 & I2 & N & S). split; [intros p [<- | I]; [split; discriminate | exact (P p I)] |].
      split; [exact I1 |]. split; [exact I2 |]. split; [intros n o [J | J]; [discriminate J | exact (N n o J)] |].
      intros n I. destruct (S n I) as [J | (it & J & K)]; [now left | right; exists it; auto].
    + unfold extract_item in E. destruct (mem n (x_names x)) eqn:M.
      * apply mem_in in M. destruct (IH _ _ E) as (P & I1 & I2 & N & S). split; [intros p [<- | I]; [split; discriminate | exact (P p I)] |].
        split; [exact I1 |]. split; [exact I2 |]. split; [intros m o [J | J]; [injection J as <- <-; exact (I2 n M) | exact (N m o J)] |].
        intros m I. destruct (S m I) as [J | (it & J & K)]; [now left | right; exists it; auto].
      * destruct ((off <? 0) || (size f <? off)) eqn:B; [discriminate E |]. destruct (item_at f off) as [i |] eqn:A; [| discriminate E].
        destruct (IH _ _ E) as (P & I1 & I2 & N & S). cbn [x_items x_names] in *. split; [intros p [<- | I]; [split; discriminate | exact (P p I)] |].
        split; [intros y Y; apply I1, in_or_app; now left |]. split; [intros y Y; apply I2; now right |].
        split; [intros m o [J | J]; [injection J as <- <-; apply I2; now left | exact (N m o J)] |].
        intros m I. destruct (S m I) as [[<- | J] | (it & J & K)]; [| now left | right; exists it; auto].
        right. exists i. split; [apply I1, in_or_app; right; now left |]. exists off. split; [now left |].
        apply orb_false_elim in B as [B1 B2]. apply Z.ltb_ge in B1, B2. split; [lia | exact A].
Qed.
Lemma each_there f ps x n off : extract_all f ps empty = Going x -> In (At n off) ps -> exists it, In it (x_items x) /\ place_holds f ps n it.
Proof.
  intros E I. destruct (going_on _ _ _ _ E) as (_ & _ & _ & N & S). destruct (S n (N n off I)) as [[] | K]. exact K.
Qed.
Lemma pe_none_lost f xs l x n : extract (OPe f xs) = Items l -> In x xs -> pe_name x = Some n -> metadata_name n ->
  exists it, holds (OPe f xs) n it /\ In it l.
Proof.
  cbn [extract]. destruct (extract_all f (map pe_place xs) empty) as [y | |] eqn:E; [| discriminate | discriminate]. intros [= <-] I Q M.
  assert (J : In (pe_place x) (map pe_place xs)) by (apply in_map, I). destruct (going_on _ _ _ _ E) as (P & _).
  destruct (P _ J) as [P1 P2]. unfold pe_place in *. rewrite Q in *. apply is_metadata in M. rewrite M in *.
  destruct (pe_offset x) as [off |]; [| now destruct P1]. destruct (each_there _ _ _ _ _ E J) as (it & A & B). exists it.
  split; [constructor; now apply pe_places_hold | exact A].
Qed.
Lemma elf_none_lost f e l s n : extract (OElf f e) = Items l -> In s (e_syms e) -> es_name s = Some n -> metadata_name n ->
  exists it, holds (OElf f e) n it /\ In it l.
Proof.
  cbn [extract]. destruct (extract_all f (elf_places e) empty) as [y | |] eqn:E; [| discriminate | discriminate]. intros [= <-] I Q M.
  apply In_nth_error in I as (i & I).
  assert (J : In (elf_place e (Z.of_nat i) s) (elf_places e)).
  { apply in_places. exists i, s. split; [exact I |]. now rewrite Z.add_0_l. }
  destruct (going_on _ _ _ _ E) as (P & _). destruct (P _ J) as [P1 P2].
  unfold elf_place in *. rewrite Q in *. apply is_metadata in M. rewrite M in *. cbn [negb] in *.
  destruct (elf_section_index e (Z.of_nat i) s) as [k |]; [| now destruct P1].
  destruct (nth_z (e_sections e) k) as [sh |]; [| now destruct P1]. destruct (es_value s <? sh_addr sh); [now destruct P2 |].
  destruct (each_there _ _ _ _ _ E J) as (it & A & B). exists it. split; [constructor; now apply elf_places_hold | exact A].
Qed.
Lemma coff_none_lost f c l ss s n : extract (OCoff f c) = Items l -> c_strings c = true -> c_symbols c = Some ss -> In s ss ->
  1 <= cs_section s -> cs_name s = Some n -> metadata_name n -> exists it, holds (OCoff f c) n it /\ In it l.
Proof.
  cbn [extract]. destruct (extract_all f (coff_places c) empty) as [y | |] eqn:E; [| discriminate | discriminate]. intros [= <-] T Y I L Q M.
  assert (J : In (coff_place c s) (coff_places c)) by (unfold coff_places; rewrite T, Y; apply in_map, I).
  destruct (going_on _ _ _ _ E) as (P & _). destruct (P _ J) as [P1 P2]. unfold coff_place in *.
  destruct (Z.leb_spec (cs_section s) 0); [lia |]. rewrite Q in *. apply is_metadata in M. rewrite M in *.
  destruct (nth_z (c_raw c) (cs_section s - 1)) as [raw |]; [| now destruct P1].
  destruct (each_there _ _ _ _ _ E J) as (it & A & B). exists it. split; [constructor; now apply coff_places_hold | exact A].
Qed.
Lemma get_in {A} k (l : list (string * A)) v : get k l = Some v -> In (k, v) l.
Proof.
  induction l as [| [n w] l IH]; cbn [get]; [discriminate |]. destruct (String.eqb_spec k n) as [-> | D]; [intros [= ->]; now left | intros E; right; exact (IH E)].
Qed.
(** Every member that the index names is read in full. *)
Lemma members_read index members l m syms n : extract (OArchive index members) = Items l -> In (m, syms) index -> In n syms -> metadata_name n ->
  exists o part, In (m, o) members /\ extract o = Items part /\ incl part l.
Proof.
  cbn [extract]. intros E I J M. assert (C : In m (members_to_check index)) by (apply checked; exists syms, n; auto).
  revert l E. induction (members_to_check index) as [| k names IH]; [destruct C |]. cbn [fold_right]. intros l E.
  match type of E with append ?a ?b = _ => destruct a as [p | |] eqn:EA; [| destruct b; discriminate E | destruct b; discriminate E];
    destruct b as [q | |] eqn:EB; [| discriminate E | discriminate E] end.
  cbn [append] in E. injection E as <-. destruct C as [-> | C].
  - rewrite get_map in EA. destruct (get m members) as [o |] eqn:G; [| discriminate EA]. cbn in EA. exists o, p.
    split; [now apply get_in |]. split; [exact EA |]. apply incl_appl, incl_refl.
  - destruct (IH C q eq_refl) as (o & part & A & B & D). exists o, part. split; [exact A |]. split; [exact B |]. now apply incl_appr.
Qed.
Fixpoint depth (o : object) : nat :=
  match o with
  | OFat l => S (fold_right (fun a d => Nat.max (depth a) d) 0%nat l)
  | OArchive _ ms => S (fold_right (fun p d => Nat.max (depth (snd p)) d) 0%nat ms)
  | _ => 0%nat
  end.
Lemma depth_member (ms : list (string * object)) m o : In (m, o) ms -> (depth o <= fold_right (fun p d => Nat.max (depth (snd p)) d) 0 ms)%nat.
Proof. induction ms as [| [k a] ms IH]; cbn [fold_right snd]; [intros [] |]. intros [E | I]; [injection E as -> ->; apply Nat.le_max_l | specialize (IH I); etransitivity; [exact IH | apply Nat.le_max_r]]. Qed.
Lemma only_known o l : extract o = Items l -> known o.
Proof.
  remember (depth o) as d eqn:D. revert o l D. induction d as [d IH] using lt_wf_ind. intros o l -> E.
  destruct o as [f e | f xs | f m | [| a arches] | index members | f c |]; try constructor.
  - discriminate E.
  - apply (IH (depth a)) with (l := l); [cbn [depth fold_right]; lia | reflexivity | exact E].
  - intros m syms n I J M. destruct (members_read _ _ _ _ _ _ E I J M) as (o & part & A & B & _). exists o. split; [exact A |].
    apply (IH (depth o)) with (l := part); [| reflexivity | exact B]. cbn [depth]. pose proof (depth_member _ _ _ A). lia.
  - discriminate E.
Qed.
