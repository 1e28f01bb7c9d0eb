(** Proofs for C34. *)
From Coq Require Import Permutation Relation_Operators Operators_Properties.
From Verif Require Import Base Meta_Types Cyc_Model Cyc_Spec.

Definition each (f : str -> list str -> list str -> res (list str * list str)) :=
  fix each (deps : list str) (visited recursive : list str) : res (list str * list str) :=
    match deps with
    | [] => Ok (visited, recursive)
    | d :: deps => bind (f d visited recursive) (fun s => each deps (fst s) (snd s))
    end.

Definition succs (g : graph) (n : str) : list str :=
  match lookup g n with Some ds => ds | None => [] end.

Lemma dfs_S fuel g name stack visited recursive :
  dfs (S fuel) g name stack visited recursive =
  if mem name visited then Ok (visited, recursive) else
  match position name stack with
  | Some pos => Ok (visited, skipn pos stack ++ recursive)
  | None =>
      bind (each (fun d v r => dfs fuel g d (stack ++ [name]) v r) (succs g name)
              visited recursive)
        (fun s => Ok (name :: fst s, snd s))
  end.
Proof. reflexivity. Qed.

Lemma mem_in n l : mem n l = true <-> In n l.
Proof.
  unfold mem. rewrite existsb_exists. split.
  - intros [x [I E]]. destruct (bytes_eqb_spec n x); [subst; exact I | discriminate].
  - intros I. exists n. split; [exact I|]. destruct (bytes_eqb_spec n n); congruence.
Qed.

Lemma position_some n l p : position n l = Some p ->
  exists l2, skipn p l = n :: l2 /\ l = firstn p l ++ n :: l2.
Proof.
  revert p. induction l as [|x l IH]; intros p H; cbn in H; [discriminate|].
  destruct (bytes_eqb_spec x n) as [->|N].
  - injection H as <-. exists l. split; reflexivity.
  - destruct (position n l) as [q|]; cbn in H; [|discriminate]. injection H as <-.
    destruct (IH q eq_refl) as [l2 [A B]]. exists l2. split; [exact A|]. cbn. f_equal. exact B.
Qed.

Lemma position_none n l : position n l = None -> ~ In n l.
Proof.
  induction l as [|x l IH]; cbn; [tauto|].
  destruct (bytes_eqb_spec x n) as [->|N]; [discriminate|].
  destruct (position n l); cbn; [discriminate|]. intros _ [E|I]; [congruence|]. apply IH; auto.
Qed.

(** ** Termination *)

Definition node (g : graph) (n : str) : Prop :=
  In n (map fst g) \/ In n (concat (map snd g)).

Definition universe (g : graph) : list str := map fst g ++ concat (map snd g).

Lemma lookup_in g n ds : lookup g n = Some ds -> In (n, ds) g.
Proof.
  induction g as [|[k es] g IH]; cbn; [discriminate|].
  destruct (bytes_eqb_spec n k) as [->|N]; [intros [= ->]; auto | auto].
Qed.

Lemma succs_universe g n d : In d (succs g n) -> In d (universe g).
Proof.
  unfold succs. destruct (lookup g n) as [ds|] eqn:L; [|intros []].
  intros I. apply lookup_in in L. unfold universe. apply in_or_app. right.
  apply in_concat. exists ds. split; [|exact I]. apply (in_map snd _ _ L).
Qed.

Lemma dfs_total g : forall fuel n stack vis rc,
  NoDup stack -> incl stack (universe g) -> In n (universe g) ->
  (length (universe g) < fuel + length stack)%nat ->
  exists vis' rc', dfs fuel g n stack vis rc = Ok (vis', rc').
Proof.
  induction fuel as [|fuel IH]; intros n stack vis rc ND IN NU F.
  - exfalso. pose proof (NoDup_incl_length ND IN). cbn in F. lia.
  - rewrite dfs_S. destruct (mem n vis); [eauto|].
    destruct (position n stack) as [p|] eqn:P; [eauto|].
    assert (E : forall ds vis rc, incl ds (universe g) ->
              exists vis' rc', each (fun d v r => dfs fuel g d (stack ++ [n]) v r) ds vis rc
                               = Ok (vis', rc')).
    { induction ds as [|d ds IHd]; intros v r I; cbn; [eauto|].
      destruct (IH d (stack ++ [n]) v r) as [v' [r' ->]].
      - apply position_none in P. rewrite <- (app_nil_r (stack ++ [n])), <- app_assoc.
        cbn. apply NoDup_Add with (a := n) (l := stack).
        { rewrite <- (app_nil_r stack) at 1. apply Add_app. }
        split; assumption.
      - intros x X. apply in_app_or in X. destruct X as [X|[<-|[]]]; auto.
      - apply I. left. reflexivity.
      - rewrite app_length. cbn. lia.
      - cbn. apply IHd. intros x X. apply I. right. exact X. }
    destruct (E (succs g n) vis rc) as [v' [r' ->]].
    { intros x X. exact (succs_universe g n x X). }
    cbn. eauto.
Qed.

Lemma find_total g : exists rc, find_recursive g = Ok rc.
Proof.
  unfold find_recursive.
  assert (H : forall keys vis rc, incl keys (map fst g) ->
            exists rc', from_keys (depth_bound g) g keys vis rc = Ok rc').
  { induction keys as [|k keys IH]; intros vis rc I; cbn [from_keys]; [eauto|].
    destruct (dfs_total g (depth_bound g) k [] vis rc) as [v' [r' ->]].
    - constructor.
    - intros x [].
    - apply in_or_app. left. apply I. left. reflexivity.
    - unfold depth_bound, universe. rewrite app_length, map_length. cbn. lia.
    - cbn. apply IH. intros x X. apply I. right. exact X. }
  apply H. intros x X. exact X.
Qed.

(** ** Every cycle has a member that is found *)

Definition good (g : graph) (vis rc : list str) : Prop :=
  forall l1 v l2 w, vis = l1 ++ v :: l2 -> In w (succs g v) -> In v rc \/ In w l2.

Lemma good_mono g vis rc rc' : incl rc rc' -> good g vis rc -> good g vis rc'.
Proof. intros I G l1 v l2 w E W. destruct (G l1 v l2 w E W); auto. Qed.

Lemma dfs_good g : forall fuel n stack vis rc vis' rc',
  dfs fuel g n stack vis rc = Ok (vis', rc') -> good g vis rc ->
  good g vis' rc' /\ incl vis vis' /\ incl rc rc' /\
  (In n vis' \/ exists p, position n stack = Some p /\ incl (skipn p stack) rc').
Proof.
  induction fuel as [|fuel IH]; intros n stack vis rc vis' rc' H G; [discriminate|].
  rewrite dfs_S in H. destruct (mem n vis) eqn:M.
  { injection H as <- <-. apply mem_in in M.
    refine (conj G (conj (incl_refl _) (conj (incl_refl _) (or_introl M)))). }
  destruct (position n stack) as [p|] eqn:P.
  { injection H as <- <-. refine (conj _ (conj (incl_refl _) (conj _ (or_intror _)))).
    - eapply good_mono; [|exact G]. apply incl_appr, incl_refl.
    - apply incl_appr, incl_refl.
    - exists p. split; [reflexivity|]. apply incl_appl, incl_refl. }
  assert (E : forall ds v r v' r',
            each (fun d v r => dfs fuel g d (stack ++ [n]) v r) ds v r = Ok (v', r') ->
            good g v r ->
            good g v' r' /\ incl v v' /\ incl r r' /\
            (forall d, In d ds -> In n r' \/ In d v')).
  { induction ds as [|d ds IHd]; intros v r v' r' X Gv.
    - injection X as <- <-.
      refine (conj Gv (conj (incl_refl _) (conj (incl_refl _) _))). intros d [].
    - cbn in X. destruct (dfs fuel g d (stack ++ [n]) v r) as [[v1 r1]| | |] eqn:D;
        cbn in X; try discriminate.
      destruct (IH _ _ _ _ _ _ D Gv) as [G1 [V1 [R1 O1]]].
      destruct (IHd _ _ _ _ X G1) as [G2 [V2 [R2 O2]]].
      refine (conj G2 (conj _ (conj _ _))).
      + eapply incl_tran; eauto.
      + eapply incl_tran; eauto.
      + intros x [<-|I]; [|exact (O2 x I)].
        destruct O1 as [A|[p [Q I]]]; [right; apply V2; exact A|].
        left. apply R2, I. destruct (position_some _ _ _ Q) as [l2 [S1 S2]].
        rewrite S1. rewrite S2 in *. clear - S2 S1 Q.
        (* the last element of the stack is in every suffix *)
        assert (L : last (firstn p (stack ++ [n]) ++ d :: l2) d = last (d :: l2) d).
        { clear. generalize (firstn p (stack ++ [n])) as a. induction a as [|x a IHa]; [reflexivity|].
          cbn [app]. cbn [last] in *. destruct (a ++ d :: l2) eqn:Z; [destruct a; discriminate|].
          exact IHa. }
        rewrite <- S2, last_last in L. rewrite L.
        destruct (exists_last (l := d :: l2)) as [q [z Z]]; [discriminate|].
        rewrite Z, last_last. apply in_or_app. right. left. reflexivity. }
  destruct (each _ (succs g n) vis rc) as [[v1 r1]| | |] eqn:X; cbn in H; try discriminate.
  injection H as <- <-.
  destruct (E _ _ _ _ _ X G) as [G1 [V1 [R1 O1]]].
  refine (conj _ (conj _ (conj R1 (or_introl _)))).
  - intros l1 v l2 w Q W. destruct l1 as [|x l1]; cbn in Q.
    + injection Q as <- <-. exact (O1 w W).
    + injection Q as _ Q. exact (G1 l1 v l2 w Q W).
  - apply incl_tl. exact V1.
  - left. reflexivity.
Qed.

Lemma from_keys_good g fuel : forall keys vis rc rc',
  from_keys fuel g keys vis rc = Ok rc' -> good g vis rc ->
  exists vis', good g vis' rc' /\ incl vis vis' /\ incl keys vis'.
Proof.
  induction keys as [|k keys IH]; intros vis rc rc' H G; cbn [from_keys] in H.
  - injection H as <-. exists vis. refine (conj G (conj (incl_refl _) _)). intros x [].
  - destruct (dfs fuel g k [] vis rc) as [[v1 r1]| | |] eqn:D; cbn in H; try discriminate.
    destruct (dfs_good _ _ _ _ _ _ _ _ D G) as [G1 [V1 [R1 O1]]].
    destruct (IH _ _ _ H G1) as [vis' [G2 [V2 K2]]].
    exists vis'. refine (conj G2 (conj (incl_tran V1 V2) _)).
    intros x [<-|X]; [|exact (K2 x X)].
    destruct O1 as [A|[p [Q _]]]; [exact (V2 _ A) | discriminate Q].
Qed.

Lemma lookup_key g n ds : lookup g n = Some ds -> In n (map fst g).
Proof. intros L. exact (in_map fst _ _ (lookup_in _ _ _ L)). Qed.

Lemma succs_key g n d : In d (succs g n) -> In n (map fst g).
Proof.
  unfold succs. destruct (lookup g n) as [ds|] eqn:L; [|intros []]. intros _.
  exact (lookup_key _ _ _ L).
Qed.

(** Going round a non-empty set closed under "has a successor in the set" one meets a found node. *)
Lemma closed_set_found g rc : find_recursive g = Ok rc ->
  forall C : list str, C <> [] ->
  (forall v, In v C -> exists w, In w C /\ In w (succs g v)) ->
  exists v, In v C /\ In v rc.
Proof.
  intros H C NE CL. unfold find_recursive in H.
  destruct (from_keys_good _ _ _ _ _ _ H) as [vis [G [_ K]]].
  { intros l1 v l2 w Q. destruct l1; discriminate Q. }
  (* the first of them to be completed *)
  assert (A : forall l, (exists l1, vis = l1 ++ l) -> (exists v, In v C /\ In v l) ->
            exists v, In v C /\ In v rc).
  { induction l as [|x l IH]; intros [l1 Q] [v [VC VL]]; [destruct VL|].
    destruct (in_dec (list_eq_dec Byte.byte_eq_dec) v l) as [I|N].
    - apply IH; [exists (l1 ++ [x]); rewrite <- app_assoc; exact Q | exists v; auto].
    - destruct VL as [->|VL]; [|contradiction].
      destruct (CL v VC) as [w [WC W]].
      destruct (G l1 v l w Q W) as [R|I]; [exists v; auto|].
      apply IH; [exists (l1 ++ [v]); rewrite <- app_assoc; exact Q | exists w; auto]. }
  apply (A vis); [exists []; reflexivity|].
  destruct C as [|v C]; [congruence|]. exists v. split; [left; reflexivity|].
  apply K. destruct (CL v (or_introl eq_refl)) as [w [_ W]]. exact (succs_key _ _ _ W).
Qed.

(** ** Everything found is on a cycle, and is followed there by something found *)

Definition edge (g : graph) (a b : str) : Prop := In b (succs g a).

Fixpoint pathl (g : graph) (l : list str) : Prop :=
  match l with
  | a :: ((b :: _) as l') => edge g a b /\ pathl g l'
  | _ => True
  end.

Lemma pathl_cons g a b l : pathl g (a :: b :: l) = (edge g a b /\ pathl g (b :: l)).
Proof. reflexivity. Qed.

Lemma pathl_skip g l1 l2 : pathl g (l1 ++ l2) -> pathl g l2.
Proof.
  induction l1 as [|a l1 IH]; [auto|]. intros P. apply IH. cbn [app] in P.
  destruct (l1 ++ l2) as [|b l]; [exact I|]. rewrite pathl_cons in P. tauto.
Qed.

Lemma pathl_snoc g l a b : pathl g (l ++ [a]) -> edge g a b -> pathl g ((l ++ [a]) ++ [b]).
Proof.
  induction l as [|x l IH]; intros P E; [split; [exact E|exact I]|].
  cbn [app] in *. destruct l as [|y l].
  - cbn in *. tauto.
  - cbn [app] in *. rewrite pathl_cons in *. destruct P as [P1 P2]. split; [exact P1|].
    apply IH; assumption.
Qed.

Notation reach g := (clos_trans str (edge g)).

(** On a path [a … last] every member reaches the last, and the first reaches every other. *)
Lemma path_reach_last g l b : forall a, pathl g ((a :: l) ++ [b]) ->
  forall m, In m (a :: l) -> reach g m b.
Proof.
  induction l as [|c l IH]; intros a P m M.
  - destruct M as [<-|[]]. apply t_step. exact (proj1 P).
  - cbn [app] in P. rewrite pathl_cons in P. destruct P as [E P].
    destruct M as [<-|M].
    + eapply t_trans; [apply t_step; exact E|]. apply (IH c P). left. reflexivity.
    + exact (IH c P m M).
Qed.

Lemma path_from_first g l : forall a, pathl g (a :: l) ->
  forall m, In m l -> reach g a m.
Proof.
  induction l as [|c l IH]; intros a P m M; [destruct M|].
  rewrite pathl_cons in P. destruct P as [E P]. destruct M as [<-|M].
  - apply t_step. exact E.
  - eapply t_trans; [apply t_step; exact E|]. exact (IH c P m M).
Qed.

Lemma path_next g l b : forall a, pathl g ((a :: l) ++ [b]) ->
  forall m, In m (a :: l) -> exists c, edge g m c /\ In c (l ++ [b]).
Proof.
  induction l as [|c l IH]; intros a P m M.
  - destruct M as [<-|[]]. exists b. split; [exact (proj1 P)|]. left. reflexivity.
  - cbn [app] in P. rewrite pathl_cons in P. destruct P as [E P]. destruct M as [<-|M].
    + exists c. split; [exact E|]. left. reflexivity.
    + destruct (IH c P m M) as [d [D I]]. exists d. split; [exact D|]. right. exact I.
Qed.

Definition cyclic (g : graph) (rc : list str) : Prop :=
  forall m, In m rc -> reach g m m /\ exists c, edge g m c /\ In c rc /\ reach g c m.

Lemma cycle_members g a l :
  pathl g ((a :: l) ++ [a]) ->
  forall m, In m (a :: l) -> reach g m m /\
    exists c, edge g m c /\ In c (a :: l) /\ reach g c m.
Proof.
  intros P m M.
  assert (AM : forall x, In x (a :: l) -> reach g a x).
  { intros x [<-|X]; [exact (path_reach_last g l a a P a (or_introl eq_refl))|].
    apply (path_from_first g (l ++ [a]) a P). apply in_or_app. left. exact X. }
  pose proof (path_reach_last g l a a P) as MA.
  split; [eapply t_trans; [exact (MA m M) | exact (AM m M)]|].
  destruct (path_next g l a a P m M) as [c [E I]]. exists c.
  assert (C : In c (a :: l)).
  { apply in_app_or in I. destruct I as [I|[<-|[]]]; [right; exact I | left; reflexivity]. }
  refine (conj E (conj C _)). eapply t_trans; [exact (MA c C) | exact (AM m M)].
Qed.

Lemma cyclic_app g r1 r2 : cyclic g r1 -> cyclic g r2 -> cyclic g (r1 ++ r2).
Proof.
  intros A B m M. apply in_app_or in M. destruct M as [M|M].
  - destruct (A m M) as [X [c [Y [Z W]]]]. split; [exact X|]. exists c.
    refine (conj Y (conj _ W)). apply in_or_app. left. exact Z.
  - destruct (B m M) as [X [c [Y [Z W]]]]. split; [exact X|]. exists c.
    refine (conj Y (conj _ W)). apply in_or_app. right. exact Z.
Qed.

Lemma dfs_cyclic g : forall fuel n stack vis rc vis' rc',
  dfs fuel g n stack vis rc = Ok (vis', rc') -> pathl g (stack ++ [n]) ->
  cyclic g rc -> cyclic g rc'.
Proof.
  induction fuel as [|fuel IH]; intros n stack vis rc vis' rc' H P C; [discriminate|].
  rewrite dfs_S in H. destruct (mem n vis); [injection H as <- <-; exact C|].
  destruct (position n stack) as [p|] eqn:Q.
  { injection H as <- <-. apply cyclic_app; [|exact C].
    destruct (position_some _ _ _ Q) as [l2 [S1 S2]]. rewrite S1.
    rewrite S2, <- app_assoc in P. apply pathl_skip in P.
    exact (cycle_members g n l2 P). }
  assert (E : forall ds, incl ds (succs g n) -> forall v r v' r',
            each (fun d v r => dfs fuel g d (stack ++ [n]) v r) ds v r = Ok (v', r') ->
            cyclic g r -> cyclic g r').
  { induction ds as [|d ds IHd]; intros I v r v' r' X Cr.
    - injection X as <- <-. exact Cr.
    - cbn in X. destruct (dfs fuel g d (stack ++ [n]) v r) as [[v1 r1]| | |] eqn:D;
        cbn in X; try discriminate.
      apply (IHd (fun x Y => I x (or_intror Y)) _ _ _ _ X).
      apply (IH _ _ _ _ _ _ D); [|exact Cr].
      apply pathl_snoc; [exact P|]. apply I. left. reflexivity. }
  destruct (each _ (succs g n) vis rc) as [[v1 r1]| | |] eqn:X; cbn in H; try discriminate.
  injection H as <- <-. exact (E _ (incl_refl _) _ _ _ _ X C).
Qed.

Lemma find_cyclic g rc : find_recursive g = Ok rc -> cyclic g rc.
Proof.
  unfold find_recursive. generalize (depth_bound g) as fuel. intros fuel.
  assert (H : forall keys vis r, from_keys fuel g keys vis r = Ok rc -> cyclic g r -> cyclic g rc).
  { induction keys as [|k keys IH]; intros vis r H C; cbn [from_keys] in H.
    - injection H as <-. exact C.
    - destruct (dfs fuel g k [] vis r) as [[v1 r1]| | |] eqn:D; cbn in H; try discriminate.
      apply (IH _ _ H). apply (dfs_cyclic _ _ _ _ _ _ _ _ D); [exact I | exact C]. }
  intros F. apply (H _ _ _ F). intros m [].
Qed.

(** ** From names to types *)

Lemma names_holds t n : In n (type_names_in_type t) <-> exists m, holds t (m, n).
Proof.
  induction t; cbn; split; intros H;
    try (destruct H; fail); try (destruct H as [? H]; inversion H; fail).
  all: try (destruct H as [<-|[]]; eexists; constructor; fail).
  all: try (destruct H as [q H]; inversion H; subst; left; reflexivity).
  all: try (apply IHt in H; destruct H as [q H]; exists q; constructor; exact H).
  all: try (destruct H as [q H]; inversion H; subst; apply IHt; eexists; eassumption).
  - apply in_app_or in H. destruct H as [H|H].
    + apply IHt1 in H. destruct H as [q H]. exists q. apply holds_key. exact H.
    + apply IHt2 in H. destruct H as [q H]. exists q. apply holds_value. exact H.
  - destruct H as [q H]. apply in_or_app. inversion H; subst.
    + left. apply IHt1. exists q. assumption.
    + right. apply IHt2. exists q. assumption.
Qed.

Lemma fields_holds d n : is_node d = true ->
  In n (flat_map type_names_in_type (def_fields d)) <-> exists m, has_field_holding d (m, n).
Proof.
  intros ND. rewrite in_flat_map. destruct d as [e|r|x]; [| |discriminate]; cbn.
  - split.
    + intros [t [I H]]. apply in_map_iff in I. destruct I as [f [<- I]].
      apply in_flat_map in I. destruct I as [v [V F]].
      apply names_holds in H. destruct H as [m H]. exists m, v, f. auto.
    + intros [m [v [f [V [F H]]]]]. exists (fd_ty f). split.
      * apply in_map. apply in_flat_map. exists v. auto.
      * apply names_holds. exists m. exact H.
  - split.
    + intros [t [I H]]. apply in_map_iff in I. destruct I as [f [<- I]].
      apply names_holds in H. destruct H as [m H]. exists m, f. auto.
    + intros [m [f [F H]]]. exists (fd_ty f). split; [apply in_map; exact F|].
      apply names_holds. exists m. exact H.
Qed.

Lemma lookup_unique g k ds : NoDup (map fst g) -> In (k, ds) g -> lookup g k = Some ds.
Proof.
  induction g as [|[k' es] g IH]; intros ND I; [destruct I|]. cbn in ND.
  inversion ND; subst. cbn. destruct I as [E|I].
  - injection E as -> ->. destruct (bytes_eqb_spec k k); congruence.
  - destruct (bytes_eqb_spec k k') as [->|_].
    + exfalso. apply H1. exact (in_map fst _ _ I).
    + apply IH; assumption.
Qed.

Lemma Forall2_in_l {A B} (R : A -> B -> Prop) l l' x :
  Forall2 R l l' -> In x l -> exists y, In y l' /\ R x y.
Proof.
  induction 1; intros I; [destruct I|]. destruct I as [<-|I].
  - exists y. split; [left; reflexivity|assumption].
  - destruct (IHForall2 I) as [z [Z1 Z2]]. exists z. split; [right; exact Z1|exact Z2].
Qed.

Lemma Forall2_in_r {A B} (R : A -> B -> Prop) l l' y :
  Forall2 R l l' -> In y l' -> exists x, In x l /\ R x y.
Proof.
  induction 1; intros I; [destruct I|]. destruct I as [<-|I].
  - exists x. split; [left; reflexivity|assumption].
  - destruct (IHForall2 I) as [z [Z1 Z2]]. exists z. split; [right; exact Z1|exact Z2].
Qed.

Lemma traversal_edge defs g : defined_once defs -> traversal defs g ->
  forall a b, edge g a b <->
    exists d m, In d defs /\ is_node d = true /\ def_name d = a /\ has_field_holding d (m, b).
Proof.
  intros DO [g0 [PM F2]] a b.
  assert (K0 : map fst g0 = map fst g).
  { clear -F2. induction F2 as [|x y l l' [E _] _ IH]; [reflexivity|]. cbn. congruence. }
  assert (ND : NoDup (map fst g)).
  { rewrite <- K0. eapply Permutation_NoDup; [apply Permutation_map; exact PM|].
    unfold dep_entries. rewrite map_map. exact DO. }
  split.
  - unfold edge, succs. destruct (lookup g a) as [ds|] eqn:L; [|intros []]. intros I.
    apply lookup_in in L. destruct (Forall2_in_r _ _ _ _ F2 L) as [[a' es] [I0 [E1 [_ E2]]]].
    cbn in E1, E2. subst a'. apply E2 in I.
    apply (Permutation_in _ (Permutation_sym PM)) in I0.
    apply in_map_iff in I0. destruct I0 as [d [Q D]]. injection Q as <- <-.
    apply filter_In in D. destruct D as [D N].
    apply (fields_holds d b N) in I. destruct I as [m I]. exists d, m. auto.
  - intros [d [m [D [N [<- H]]]]].
    assert (I : In (def_name d, flat_map type_names_in_type (def_fields d)) (dep_entries defs)).
    { apply (in_map (fun d => (def_name d, flat_map type_names_in_type (def_fields d)))).
      apply filter_In. auto. }
    apply (Permutation_in _ PM) in I.
    destruct (Forall2_in_l _ _ _ _ F2 I) as [[a' es] [I0 [E1 [_ E2]]]]. cbn in E1, E2. subst a'.
    unfold edge, succs. rewrite (lookup_unique _ _ _ ND I0). apply E2.
    apply (fields_holds d b N). exists m. exact H.
Qed.

Lemma defines_node d i : defines d i -> is_node d = true /\ snd i = def_name d.
Proof. destruct d; cbn; intros H; try contradiction; subst; cbn; auto. Qed.

Lemma node_defines d : is_node d = true -> exists m, defines d (m, def_name d).
Proof. destruct d; cbn; intros H; try discriminate; eexists; reflexivity. Qed.

Lemma edge_contains defs g : defined_once defs -> unambiguous defs -> traversal defs g ->
  forall ma a b, appears defs (ma, a) -> edge g a b ->
  exists mb, contains defs (ma, a) (mb, b).
Proof.
  intros DO UN TR ma a b AP E. apply (traversal_edge _ _ DO TR) in E.
  destruct E as [d [m [D [N [<- H]]]]]. exists m.
  destruct (node_defines d N) as [md DM].
  assert (ma = md) as ->.
  { apply (UN ma md (def_name d) AP). exists d. auto. }
  exists d. auto.
Qed.

Lemma contains_edge defs g : defined_once defs -> traversal defs g ->
  forall a b, contains defs a b -> edge g (snd a) (snd b).
Proof.
  intros DO TR a [mb b] [d [D [DF H]]]. apply (traversal_edge _ _ DO TR).
  destruct (defines_node d a DF) as [N E]. exists d, mb. cbn. auto.
Qed.

Lemma reach_contains defs g : defined_once defs -> unambiguous defs -> traversal defs g ->
  forall a b, reach g a b -> forall ma, appears defs (ma, a) ->
  exists mb, clos_trans _ (contains defs) (ma, a) (mb, b) /\ appears defs (mb, b).
Proof.
  intros DO UN TR a b R. apply clos_trans_t1n in R.
  induction R as [a b E | a c b E R IH]; intros ma AP.
  - destruct (edge_contains _ _ DO UN TR _ _ _ AP E) as [mb C]. exists mb.
    split; [apply t_step; exact C|]. destruct C as [d [D [_ H]]]. exists d. auto.
  - destruct (edge_contains _ _ DO UN TR _ _ _ AP E) as [mc C].
    assert (APC : appears defs (mc, c)) by (destruct C as [d [D [_ H]]]; exists d; auto).
    destruct (IH mc APC) as [mb [RB AB]]. exists mb. split; [|exact AB].
    eapply t_trans; [apply t_step; exact C | exact RB].
Qed.

Lemma contains_reach defs g : defined_once defs -> traversal defs g ->
  forall a b, clos_trans _ (contains defs) a b -> reach g (snd a) (snd b).
Proof.
  intros DO TR a b R. induction R as [a b C | a b c R1 IH1 R2 IH2].
  - apply t_step. exact (contains_edge _ _ DO TR _ _ C).
  - eapply t_trans; eassumption.
Qed.

(** ** The results *)

Lemma marked_sound defs g rc : defined_once defs -> unambiguous defs -> traversal defs g ->
  find_recursive g = Ok rc ->
  forall d i, In d defs -> defines d i -> marked rc d = true -> contains_itself defs i.
Proof.
  intros DO UN TR F d [m n] D DF M. unfold marked in M. apply andb_true_iff in M.
  destruct M as [N M]. apply mem_in in M.
  destruct (defines_node _ _ DF) as [_ E]. cbn in E. subst n.
  destruct (find_cyclic _ _ F _ M) as [R _].
  assert (AP : appears defs (m, def_name d)) by (exists d; auto).
  destruct (reach_contains _ _ DO UN TR _ _ R m AP) as [m' [C AP']].
  rewrite <- (UN m m' _ AP AP') in C. exact C.
Qed.

Lemma chain_marked defs g rc : defined_once defs -> traversal defs g ->
  find_recursive g = Ok rc ->
  forall a path, chain defs a path a ->
  exists b d, In b (a :: path) /\ In d defs /\ defines d b /\ marked rc d = true.
Proof.
  intros DO TR F a path CH.
  assert (NX : forall p a b, chain defs a p b -> forall x, In x (a :: p) ->
             exists y, contains defs x y /\ (In y p \/ y = b)).
  { induction p as [|c p IH]; intros a0 b H x X; cbn in H.
    - destruct X as [<-|[]]. exists b. auto.
    - destruct H as [H1 H2]. destruct X as [<-|X].
      + exists c. split; [exact H1|]. left. left. reflexivity.
      + destruct (IH _ _ H2 x X) as [y [Y1 Y2]]. exists y. split; [exact Y1|].
        destruct Y2; [left; right; assumption | right; assumption]. }
  destruct (closed_set_found g rc F (map snd (a :: path))) as [v [V R]].
  - discriminate.
  - intros v V. apply in_map_iff in V. destruct V as [x [<- X]].
    destruct (NX _ _ _ CH x X) as [y [C Y]]. exists (snd y). split.
    + apply in_map. destruct Y as [Y| ->]; [right; exact Y | left; reflexivity].
    + exact (contains_edge _ _ DO TR _ _ C).
  - apply in_map_iff in V. destruct V as [x [<- X]].
    destruct (NX _ _ _ CH x X) as [y [[d [D [DF H]]] _]]. exists x, d.
    refine (conj X (conj D (conj DF _))). destruct (defines_node _ _ DF) as [N E].
    unfold marked. rewrite N, <- E. apply mem_in. exact R.
Qed.

Lemma ct_chain defs a b : clos_trans _ (contains defs) a b -> exists path, chain defs a path b.
Proof.
  intros R. apply clos_trans_t1n in R. induction R as [a b C | a c b C R [p IH]].
  - exists []. exact C.
  - exists (c :: p). split; assumption.
Qed.

(** If each type that contains itself does so in one way only, what is marked is exact. *)
Lemma marked_exact defs g rc : defined_once defs -> unambiguous defs -> traversal defs g ->
  find_recursive g = Ok rc ->
  (forall a b c, contains defs a b -> contains defs a c ->
     clos_trans _ (contains defs) b a -> clos_trans _ (contains defs) c a -> b = c) ->
  forall d i, In d defs -> defines d i -> (marked rc d = true <-> contains_itself defs i).
Proof.
  intros DO UN TR F ONE d i D DF. split; [exact (marked_sound _ _ _ DO UN TR F d i D DF)|].
  intros CI. destruct (ct_chain _ _ _ CI) as [path CH].
  (* a marked member *)
  destruct (chain_marked _ _ _ DO TR F _ _ CH) as [b [db [B [DB [DFB MB]]]]].
  (* being marked is passed on along the cycle *)
  assert (STEP : forall x y, contains defs x y -> clos_trans _ (contains defs) y x ->
                   In (snd x) rc -> In (snd y) rc).
  { intros [mx x] y C R I. destruct (find_cyclic _ _ F _ I) as [_ [c [E [IC RC]]]]. cbn in *.
    assert (AX : appears defs (mx, x)).
    { destruct C as [dx [DX [DFX _]]]. exists dx. auto. }
    destruct (edge_contains _ _ DO UN TR _ _ _ AX E) as [mc CC].
    assert (AC : appears defs (mc, c)) by (destruct CC as [dx [DX [_ H]]]; exists dx; auto).
    destruct (reach_contains _ _ DO UN TR _ _ RC mc AC) as [mx' [RX AX']].
    rewrite (UN mx' mx x AX' AX) in RX.
    rewrite (ONE _ _ _ C CC R RX). exact IC. }
  assert (FIN : forall x y, clos_trans _ (contains defs) x y -> clos_trans _ (contains defs) y x ->
                  In (snd x) rc -> In (snd y) rc).
  { intros x y R. apply clos_trans_t1n in R. induction R as [x y C | x z y C R IH]; intros RB I.
    - exact (STEP _ _ C RB I).
    - apply clos_t1n_trans in R. apply IH.
      + eapply t_trans; [exact RB | apply t_step; exact C].
      + apply (STEP _ _ C); [|exact I]. eapply t_trans; eassumption. }
  assert (BI : clos_trans _ (contains defs) b i /\ clos_trans _ (contains defs) i b).
  { clear -CH B CI.
    assert (TO : forall p a e, chain defs a p e -> forall x, In x (a :: p) ->
              clos_trans _ (contains defs) x e).
    { induction p as [|c p IH]; intros a e H x X; cbn in H.
      - destruct X as [<-|[]]. apply t_step. exact H.
      - destruct H as [H1 H2]. destruct X as [<-|X]; [|exact (IH _ _ H2 x X)].
        eapply t_trans; [apply t_step; exact H1|]. apply (IH _ _ H2). left. reflexivity. }
    assert (FROM : forall p a e, chain defs a p e -> forall x, In x p ->
              clos_trans _ (contains defs) a x).
    { induction p as [|c p IH]; intros a e H x X; [destruct X|]. destruct H as [H1 H2].
      destruct X as [<-|X]; [apply t_step; exact H1|].
      eapply t_trans; [apply t_step; exact H1 | exact (IH _ _ H2 x X)]. }
    split; [exact (TO _ _ _ CH b B)|].
    destruct B as [<-|B]; [exact CI | exact (FROM _ _ _ CH b B)]. }
  destruct BI as [BI IB].
  unfold marked in *. apply andb_true_iff in MB. destruct MB as [_ MB]. apply mem_in in MB.
  destruct (defines_node _ _ DFB) as [_ EB]. destruct (defines_node _ _ DF) as [N E].
  rewrite N, <- E. apply mem_in. apply (FIN b i BI IB). rewrite EB. exact MB.
Qed.
