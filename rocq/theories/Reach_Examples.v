(** Concrete cases for C43. *)
From Verif Require Import Base Meta_Types Reach_Model Reach_Spec Reach_Proofs.
Local Open Scope string_scope.

Definition mp := S_ "app".
Definition TNode := TRecord mp (S_ "Node").
Definition TLeaf := TRecord mp (S_ "Leaf").
Definition TObj := TObject mp (S_ "Obj") IStruct.
Definition TPlain := TRecord mp (S_ "Plain").

(** A recursive record that holds an object two definitions away. *)
Definition good : ci :=
  Ci mp [Def KRecord (S_ "Node") [TSeq TNode; TMap TString TLeaf] [];
         Def KRecord (S_ "Leaf") [TOption TObj] [];
         Def KObject (S_ "Obj") [] [TNode; TU32];
         Def KRecord (S_ "Plain") [TString; TOption TPlain] []].

Ltac each H := repeat match type of H with
  | _ \/ _ => destruct H as [H|H]
  | In _ (_ :: _) => cbn [In] in H
  | In _ [] => destruct H
  | False => destruct H
  end.

(** Membership of [written] by computation: on interfaces without [Box] what is written is listed. *)
Definition listed (world : list ci) (item : ty) : list ty :=
  iter_types item ++ flat_map (fun c => flat_map iter_def (defs c)) world.

Fixpoint boxless (t : ty) : bool :=
  match t with
  | TBox _ => false
  | TOption t | TSeq t | TSet t | TCustom _ _ t => boxless t
  | TMap k v => boxless k && boxless v
  | _ => true
  end.

Lemma boxless_inside u t : inside u t -> boxless t = true -> boxless u = true.
Proof.
  induction 1; cbn [boxless]; intros B; auto; try discriminate.
  - apply andb_true_iff in B as [B _]. auto.
  - apply andb_true_iff in B as [_ B]. auto.
Qed.

Lemma boxless_iter u t : inside u t -> boxless t = true -> In u (iter_types t).
Proof.
  intros I B. apply inside_in_iter; [|exact I]. intros b J.
  assert (X := boxless_inside _ _ J B). discriminate.
Qed.

Definition all_boxless (world : list ci) (item : ty) : bool :=
  boxless item && forallb (fun c => forallb (fun d => forallb boxless (everything d)) (defs c)) world.

Lemma written_listed world item t : all_boxless world item = true -> written world item t ->
  In t (listed world item) /\ boxless t = true.
Proof.
  intros B W. apply andb_true_iff in B as [B1 B2].
  destruct W as [I|[c [d [f [Ic [Id [If I]]]]]]].
  - split; [|exact (boxless_inside _ _ I B1)]. apply in_or_app. left. apply boxless_iter; auto.
  - assert (BF : boxless f = true).
    { rewrite forallb_forall in B2. specialize (B2 c Ic). rewrite forallb_forall in B2.
      specialize (B2 d Id). rewrite forallb_forall in B2. exact (B2 f If). }
    split; [|exact (boxless_inside _ _ I BF)]. apply in_or_app. right.
    apply in_flat_map. exists c. split; [exact Ic|]. apply in_flat_map. exists d. split; [exact Id|].
    apply in_flat_map. exists f. split; [exact If|]. apply boxless_iter; auto.
Qed.

Lemma boxless_no_box world item : all_boxless world item = true -> no_box world item.
Proof.
  intros B t W. destruct (written_listed _ _ _ B W) as [_ X]. destruct t; auto. discriminate.
Qed.

Lemma good_well_formed : well_formed [good; good] TNode.
Proof.
  assert (B : all_boxless [good; good] TNode = true) by reflexivity.
  split; [|split; [|split]].
  - intros c c' [<-|[<-|[]]] [<-|[<-|[]]] _; reflexivity.
  - intros c d d' Ic Id Id' E. assert (c = good) as -> by (destruct Ic as [<-|[<-|[]]]; reflexivity).
    cbn [good defs In] in Id, Id'.
    destruct Id as [<-|[<-|[<-|[<-|[]]]]]; destruct Id' as [<-|[<-|[<-|[<-|[]]]]];
      first [reflexivity | discriminate E].
  - intros t k m n W N. exists good. split; [left; reflexivity|].
    destruct (written_listed _ _ _ B W) as [L _]. vm_compute in L.
    each L; subst t; cbn in N; first [discriminate N | injection N as _ <- _; reflexivity].
  - intros t t' k k' m n W W' N N'.
    destruct (written_listed _ _ _ B W) as [L _]. destruct (written_listed _ _ _ B W') as [L' _].
    assert (X : forall u q, In u (listed [good; good] TNode) -> named u = Some (q, m, n) ->
              q = if bytes_eqb n (S_ "Obj") then KObject else KRecord).
    { intros u q Lu Nu. vm_compute in Lu. each Lu; subst u; cbn in Nu;
        first [discriminate Nu | injection Nu as <- _ <-; reflexivity]. }
    rewrite (X t k L N), (X t' k' L' N'). reflexivity.
Qed.

Lemma good_no_box : no_box [good; good] TNode.
Proof. apply boxless_no_box. reflexivity. Qed.

Example good_yes : item_contains_object_references 20 good [good] TNode = Some true.
Proof. vm_compute. reflexivity. Qed.

Example good_no : item_contains_object_references 20 good [good] TPlain = Some false.
Proof. vm_compute. reflexivity. Qed.

Example good_unsigned : item_contains_unsigned_types 40 good [good] TNode = Some true.
Proof. vm_compute. reflexivity. Qed.

(** A record with a boxed record that holds an object. *)
Definition boxed : ci :=
  Ci mp [Def KRecord (S_ "Outer") [TBox TLeaf] [];
         Def KRecord (S_ "Leaf") [TObj] [];
         Def KObject (S_ "Obj") [] []].
Definition TOuter := TRecord mp (S_ "Outer").

Lemma boxed_well_formed : well_formed [boxed; boxed] TOuter.
Proof.
  assert (LW : forall t, written [boxed; boxed] TOuter t -> t = TOuter \/ t = TBox TLeaf \/ t = TLeaf \/ t = TObj).
  { intros t [I|[c [d [f [Ic [Id [If I]]]]]]].
    - inversion I; auto.
    - assert (c = boxed) as -> by (destruct Ic as [<-|[<-|[]]]; reflexivity).
      cbn [boxed defs In] in Id. destruct Id as [<-|[<-|[<-|[]]]]; cbn in If.
      + destruct If as [<-|[]]. inversion I as [| | | | | | |? I']; subst; auto.
        inversion I'; auto.
      + destruct If as [<-|[]]. inversion I; auto.
      + destruct If. }
  split; [|split; [|split]].
  - intros c c' [<-|[<-|[]]] [<-|[<-|[]]] _; reflexivity.
  - intros c d d' Ic Id Id' E. assert (c = boxed) as -> by (destruct Ic as [<-|[<-|[]]]; reflexivity).
    cbn [boxed defs In] in Id, Id'.
    destruct Id as [<-|[<-|[<-|[]]]]; destruct Id' as [<-|[<-|[<-|[]]]];
      first [reflexivity | discriminate E].
  - intros t k m n W N. exists boxed. split; [left; reflexivity|].
    apply LW in W. each W; subst t; cbn in N; first [discriminate N | injection N as _ <- _; reflexivity].
  - intros t t' k k' m n W W' N N'.
    assert (X : forall u q, u = TOuter \/ u = TBox TLeaf \/ u = TLeaf \/ u = TObj -> named u = Some (q, m, n) ->
              q = if bytes_eqb n (S_ "Obj") then KObject else KRecord).
    { intros u q Lu Nu. each Lu; subst u; cbn in Nu;
        first [discriminate Nu | injection Nu as <- _ <-; reflexivity]. }
    rewrite (X t k (LW _ W) N), (X t' k' (LW _ W') N'). reflexivity.
Qed.

Lemma boxed_missed : exists self all item,
  well_formed (self :: all) item /\
  (exists o, an_object o /\ contains (self :: all) only_fields item o) /\
  forall fuel, item_contains_object_references fuel self all item <> Some true.
Proof.
  exists boxed, [boxed], TOuter. split; [exact boxed_well_formed|]. split.
  - exists TObj. split; [do 3 eexists; reflexivity|].
    refine (c_define _ _ _ TLeaf (Def KRecord (S_ "Leaf") [TObj] []) TObj TObj _ _ _ (in_self _)).
    + refine (c_define _ _ _ TOuter (Def KRecord (S_ "Outer") [TBox TLeaf] []) (TBox TLeaf) TLeaf
                (c_inside _ _ _ _ (in_self _)) _ _ (in_box _ _ (in_self _))).
      * exists KRecord, mp, (S_ "Outer"), boxed. repeat split; left; reflexivity.
      * left. reflexivity.
    + exists KRecord, mp, (S_ "Leaf"), boxed.
      refine (conj eq_refl (conj (or_introl eq_refl) (conj eq_refl (conj _ (conj eq_refl eq_refl))))).
      right. left. reflexivity.
    + left. reflexivity.
  - intros fuel H. unfold item_contains_object_references in H.
    assert (F : any_in_item 10 boxed [boxed] is_object TOuter = Some false) by (vm_compute; reflexivity).
    unfold any_in_item in *.
    assert (A := any_mono _ _ _ _ _ _ H (Nat.max fuel 10) (Nat.le_max_l _ _)).
    assert (B := any_mono _ _ _ _ _ _ F (Nat.max fuel 10) (Nat.le_max_r _ _)).
    congruence.
Qed.

(** A record without objects in its fields, and a method that takes one. *)
Definition methods : ci :=
  Ci mp [Def KRecord (S_ "Plain") [TString] [TObj]; Def KObject (S_ "Obj") [] []].

Lemma methods_well_formed : well_formed [methods; methods] TPlain.
Proof.
  assert (B : all_boxless [methods; methods] TPlain = true) by reflexivity.
  split; [|split; [|split]].
  - intros c c' [<-|[<-|[]]] [<-|[<-|[]]] _; reflexivity.
  - intros c d d' Ic Id Id' E. assert (c = methods) as -> by (destruct Ic as [<-|[<-|[]]]; reflexivity).
    cbn [methods defs In] in Id, Id'.
    destruct Id as [<-|[<-|[]]]; destruct Id' as [<-|[<-|[]]];
      first [reflexivity | discriminate E].
  - intros t k m n W N. exists methods. split; [left; reflexivity|].
    destruct (written_listed _ _ _ B W) as [L _]. vm_compute in L.
    each L; subst t; cbn in N; first [discriminate N | injection N as _ <- _; reflexivity].
  - intros t t' k k' m n W W' N N'.
    destruct (written_listed _ _ _ B W) as [L _]. destruct (written_listed _ _ _ B W') as [L' _].
    assert (X : forall u q, In u (listed [methods; methods] TPlain) -> named u = Some (q, m, n) ->
              q = if bytes_eqb n (S_ "Obj") then KObject else KRecord).
    { intros u q Lu Nu. vm_compute in Lu. each Lu; subst u; cbn in Nu;
        first [discriminate Nu | injection Nu as <- _ <-; reflexivity]. }
    rewrite (X t k L N), (X t' k' L' N'). reflexivity.
Qed.

Lemma methods_flagged : exists self all item fuel,
  well_formed (self :: all) item /\ no_box (self :: all) item /\
  item_contains_object_references fuel self all item = Some true /\
  forall o, contains (self :: all) only_fields item o -> ~ an_object o.
Proof.
  exists methods, [methods], TPlain, 10. split; [exact methods_well_formed|].
  split; [apply boxless_no_box; reflexivity|]. split; [vm_compute; reflexivity|].
  assert (X : forall o, contains [methods; methods] only_fields TPlain o -> o = TPlain \/ o = TString).
  { induction 1 as [u I|u d f v C IH D F I].
    - inversion I; auto.
    - destruct D as [k [m [n [c [N [Ic [_ [Id [K Dn]]]]]]]]].
      assert (c = methods) as -> by (destruct Ic as [<-|[<-|[]]]; reflexivity).
      cbn [methods defs In] in Id. destruct Id as [<-|[<-|[]]]; cbn in F.
      + destruct F as [<-|[]]. inversion I; auto.
      + destruct F. }
  intros o C [m [n [i ->]]]. apply X in C as [C|C]; discriminate C.
Qed.
