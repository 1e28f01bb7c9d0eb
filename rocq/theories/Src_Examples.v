(** Items for the theorems of C71, each with the Rust it stands for. *)
From Coq Require Import String.
From Verif Require Import Base Utf8 Meta_Types Meta_Model Meta_Spec Src_Model Src_Spec Src_Main.
Open Scope string_scope.
Open Scope list_scope.
Open Scope Z_scope.

Definition s (x : string) : str := list_byte_of_string x.
Definition id (x : string) : ident := Id (s x) false.
Definition args1 (a : arg) : args := Args [a] false.
Definition doc_lines : list attr := [AtDoc (s "One."); AtDoc (s ""); AtDoc (s "Two.")].
(** Defined in `m::inner`, public in `m` by `pub use inner::Name;` resp. by being there. *)
Definition here : place := Place (s "m::inner") (s "m") None.
Definition used (x : string) : place := Place (s "m::inner") (s "m") (Some (s x)).

(** What the library says, computed. *)
Definition lib (p : place) (it : item) : option (list metadata) :=
  Src_Model.bind (macros p it) (fun ms =>
  Src_Model.bind (traverse (write (pl_here p)) ms) (fun bs =>
  traverse (fun b => match read 9 b with Ok (m, []) => Some m | _ => None end) bs)).

Lemma lib_in p it ls : utf8_valid (pl_here p) = true -> lib p it = Some ls -> in_library 9 p it ls.
Proof.
  unfold lib. intros U H. destruct (macros p it) as [ms|] eqn:M; [|discriminate]. cbn in H.
  destruct (traverse (write (pl_here p)) ms) as [bs|] eqn:W; [|discriminate]. cbn in H.
  exists ms, bs. split; [exact M|split].
  - apply Src_Proofs.traverse_forall2 in W. clear - W U. induction W; constructor; auto.
    exists (pl_here p). split; assumption.
  - apply Src_Proofs.traverse_forall2 in H. clear - H. induction H as [|b m bs ls E _ IH]; constructor; auto.
    destruct (read 9 b) as [[m' [|]]| | |]; congruence.
Qed.

(** ** Items described alike *)

(** [#[derive(uniffi::Record)] #[uniffi(name = "Point2")] /// … struct Point {
     #[uniffi(default = 3)] x: u8, #[uniffi(name = "why", default = Some("a"))] y: Option<String> }] *)
Definition point : item :=
  ItRecord false (id "Point") (AtUniffi (args1 (AName (s "Point2"))) :: doc_lines)
    [SField (Some (id "x")) [AtUniffi (args1 (ADefault (Some (VInt 3 false))))] TU8;
     SField (Some (Id (s "y") true))
       [AtUniffi (Args [AName (s "why"); ADefault (Some (VSome (VStr (s "a"))))] true); AtOther]
       (TOption TString)].
(** [#[derive(uniffi::Enum)] #[repr(i8)] #[non_exhaustive] #[uniffi::export(Eq, Debug)]
     enum Level { Low = -1, #[uniffi(name = "Top")] High(u32) = 7, Other { default_: bool } }] *)
Definition level : item :=
  ItEnum false false (id "Level")
    [AtRepr [RTy TI8]; AtNonExhaustive; AtExport (Some (Args [AFlag GEq; AFlag GDebug] false))]
    [SVariant (id "Low") [] (Some (DxNegInt 1)) [];
     SVariant (id "High") [AtUniffi (args1 (AName (s "Top")))] (Some (DxInt 7)) [SField None [] TU32];
     SVariant (id "Other") doc_lines None [SField (Some (id "default_")) [] TBool]].
(** [#[derive(uniffi::Error)] #[uniffi(flat_error)] enum Failed { A(Inner), B }] *)
Definition failed : item :=
  ItEnum true false (id "Failed") [AtUniffi (args1 (AFlag GFlat))]
    [SVariant (id "A") [] None [SField None [] TI64]; SVariant (id "B") doc_lines None []].
(** [#[uniffi::export(default(n = 4), name = "go")] async fn run(n: u64, s: &str) -> Result<u8, Failed>] *)
Definition run : item :=
  ItFn (SFn (id "run")
    [AtExport (Some (Args [ADefaults [(id "n", Some (VInt 4 false))] false; AName (s "go")] false))]
    true [FTyped (Some (id "n")) TU64 ByValue false; FTyped (Some (id "s")) TString ByRef false]
    (Some TU8) (Some (TEnum (s "m") (s "Failed"))) true).
(** [#[uniffi::export] impl Obj { #[uniffi::constructor(name = "of")] fn make(x: u8) -> Arc<Self>;
     fn get(&self, o: &Self) -> u8; #[uniffi::method(default(n))] fn put(&self, n: u8) }] *)
Definition OBJ : ty := TObject (s "m") (s "Obj") IStruct.
Definition methods (tr : option ty) : item :=
  ItImpl (Some (id "Obj")) OBJ tr [AtExport None]
    [MbFn (SFn (id "make") [AtCtor (Some (args1 (AName (s "of"))))] false
             [FTyped (Some (id "x")) TU8 ByValue false] (Some OBJ) None true);
     MbFn (SFn (id "get") doc_lines false [FReceiver false; FTyped (Some (id "o")) OBJ ByRef true]
             (Some TU8) None true);
     MbFn (SFn (id "put") [AtMethod (Some (args1 (ADefaults [(id "n", None)] false)))] false
             [FReceiver false; FTyped (Some (id "n")) TU8 ByValue false] None None true)].
(** [#[uniffi::export(rust, foreign)] trait Logger { fn log(&self, s: String); async fn flush(&self); }] *)
Definition logger (l : list attr) : item :=
  ItTrait (id "Logger") l
    [MbFn (SFn (id "log") [] false [FReceiver false; FTyped (Some (id "s")) TString ByValue false]
             None None false);
     MbFn (SFn (id "flush") doc_lines true [FReceiver false] None None false)].
Definition both : list attr := [AtExport (Some (Args [AFlag GRust; AFlag GForeign] false))].

Lemma plain_point : plain here point.
Proof. split; [reflexivity|split; [split; [reflexivity|left; reflexivity]|left]]. intros a H. cbn in H. intuition discriminate. Qed.
Lemma plain_level : plain (used "Level") level.
Proof.
  split.
  - split; [reflexivity|split; [split; [reflexivity|right; reflexivity]|right]].
    intros a n H. cbn in H. intuition discriminate.
  - split.
    + intros v f [<- | [<- | [<- | []]]] I; cbn in I.
      * destruct I.
      * destruct I as [<- | []]. right. intros a n [].
      * destruct I as [<- | []]. left. discriminate.
    + right. exists [RTy TI8]. split; [left; reflexivity | discriminate].
Qed.
Lemma plain_failed : plain here failed.
Proof.
  split.
  - split; [reflexivity|split; [split; [reflexivity|left; reflexivity]|left]].
    intros a H. cbn in H. intuition discriminate.
  - split.
    + intros v f [<- | [<- | []]] I; cbn in I.
      * destruct I as [<- | []]. right. intros a n [].
      * destruct I.
    + split.
      * intros rs H. cbn in H. intuition discriminate.
      * intros v [<- | [<- | []]]; reflexivity.
Qed.
Lemma plain_run : plain here run.
Proof. split; [reflexivity|left; reflexivity]. Qed.
Lemma plain_methods : plain here (methods None).
Proof.
  split; [reflexivity|split].
  - right. exists (id "Obj"). split; reflexivity.
  - repeat (constructor; [split; [cbn; intuition discriminate | cbn; lia]|]). constructor.
Qed.
Lemma plain_logger : plain here (logger both).
Proof.
  split; [split; [reflexivity|left; reflexivity]|].
  repeat (constructor; [split; [cbn; intuition discriminate | cbn; lia]|]). constructor.
Qed.

Definition examples : list (place * item) :=
  [(here, point); (used "Level", level); (here, failed); (here, run); (here, methods None);
   (here, logger both)].
Lemma examples_plain : Forall (fun x => plain (fst x) (snd x)) examples.
Proof.
  constructor; [exact plain_point|]. constructor; [exact plain_level|].
  constructor; [exact plain_failed|]. constructor; [exact plain_run|].
  constructor; [exact plain_methods|]. constructor; [exact plain_logger|constructor].
Qed.
Definition size {A} (o : option (list A)) : Z := match o with Some l => Z.of_nat (List.length l) | None => -1 end.
Lemma examples_both :
  map (fun x => (size (lib (fst x) (snd x)), size (sources (fst x) (snd x)))) examples
  = [(1, 1); (3, 3); (1, 1); (1, 1); (3, 3); (3, 3)].
Proof. vm_compute. reflexivity. Qed.
Lemma example_run :
  Src_Model.bind (lib here run) (fun l =>
    Some (map (fun m => match m with MFunc f => MFunc (no_checksum_fn f) | m => m end) l)) =
  Some [MFunc (Fn (s "m::inner") (s "go") (Some (s "run")) true
    [Param (s "n") TU64 ByValue (Some (DLit (LUInt 4 Decimal_ TU64))); Param (s "s") TString ByRef None]
    (Some TU8) (Some (TEnum (s "m") (s "Failed"))) None None)].
Proof. vm_compute. reflexivity. Qed.

(** ** Items described differently *)

(** [#[derive(uniffi::Enum)] enum E { A = 3 }] *)
Definition values : item := ItEnum false false (id "E") [] [SVariant (id "A") [] (Some (DxInt 3)) []].
(** [#[derive(uniffi::Error)] #[repr(u8)] enum E { A }] *)
Definition error_repr : item :=
  ItEnum true false (id "E") [AtRepr [RTy TU8]] [SVariant (id "A") [] None []].
(** [#[uniffi::export] impl Obj { fn m(self: Arc<Self>) {} }] *)
Definition by_arc : item :=
  ItImpl (Some (id "Obj")) OBJ None [AtExport None]
    [MbFn (SFn (id "m") [] false [FReceiver true] None None true)].
(** [#[uniffi::remote(Record)] struct R { x: u8 }] *)
Definition remote_record : item :=
  ItRecord true (id "R") [] [SField (Some (id "x")) [] TU8].
(** [#[uniffi::export] impl Tr for Obj { fn m(&self) {} }] *)
Definition trait_impl : item :=
  ItImpl (Some (id "Obj")) OBJ (Some (TObject (s "m") (s "Tr") (ITrait RustOnly))) [AtExport None]
    [MbFn (SFn (id "m") [] false [FReceiver false] None None true)].
(** [#[uniffi::export] impl Obj { fn m(&self) {} }] where the type is renamed: [#[uniffi(name = "New")]
     struct Obj] *)
Definition renamed_impl : item :=
  ItImpl (Some (id "Obj")) (TObject (s "m") (s "New") IStruct) None [AtExport None]
    [MbFn (SFn (id "m") [] false [FReceiver false] None None true)].
(** [#[derive(uniffi::Object)] #[uniffi(name = "New")] #[uniffi::export(Debug)] struct Obj] *)
Definition renamed_debug : item :=
  ItObject false (id "Obj")
    [AtUniffi (args1 (AName (s "New"))); AtExport (Some (args1 (AFlag GDebug)))].
(** [#[derive(uniffi::Object)] struct r#type] *)
Definition raw_name : item := ItObject false (Id (s "type") true) [].
(** [#[derive(uniffi::Enum)] enum E { A(#[uniffi(name = "x")] u8) }] *)
Definition unnamed_field : item :=
  ItEnum false false (id "E") []
    [SVariant (id "A") [] None [SField None [AtUniffi (args1 (AName (s "x")))] TU8]].
(** [#[derive(uniffi::Object)] struct Obj], public by [pub use inner::Obj as Thing;] *)
Definition plain_object : item := ItObject false (id "Obj") [].
(** [#[uniffi::export] impl Obj { #[uniffi::method(name = "a")] #[uniffi::method(default(n = 1))]
     fn m(&self, n: u8) {} }] *)
Definition two_attrs : item :=
  ItImpl (Some (id "Obj")) OBJ None [AtExport None]
    [MbFn (SFn (id "m")
       [AtMethod (Some (args1 (AName (s "a"))));
        AtMethod (Some (args1 (ADefaults [(id "n", Some (VInt 1 false))] false)))]
       false [FReceiver false; FTyped (Some (id "n")) TU8 ByValue false] None None true)].

Ltac refute_like :=
  match goal with
  | L : like _ _ _ |- False =>
      unfold like, like_enum, like_variant, like_record, like_object, like_fn, like_field,
        like_param, like_names, like_doc, same_named in L;
      cbn in L
  end;
  repeat match goal with
  | H : _ /\ _ |- _ => destruct H
  | H : Forall2 _ (_ :: _) (_ :: _) |- _ => inversion H; subst; clear H; cbn in *
  | H : False |- _ => destruct H
  end; try discriminate.
Ltac show_lib := apply lib_in; [vm_compute; reflexivity | vm_compute; reflexivity].
Ltac library_odd n :=
  let A := fresh in intros [A _];
  match type of A with forall l, In l (map from_library ?ls) -> _ =>
    let x := eval cbv in (nth n (map from_library ls) (from_library (MNamespace [] []))) in
    let s := fresh in let I := fresh in let L := fresh "L" in
    destruct (A x) as (s & I & L); [cbn; auto|]; cbn in I;
    repeat (destruct I as [<- | I]; [refute_like|]); try destruct I
  end.
Ltac differs n :=
  match goal with |- differ 9 ?p ?it =>
    let l := eval vm_compute in (lib p it) in
    let r := eval vm_compute in (sources p it) in
    match l with Some ?ls => match r with Some ?ss =>
      exists ls, ss; split; [show_lib | split; [vm_compute; reflexivity | library_odd n]]
    end end
  end.

Lemma values_differ : differ 9 here values. Proof. differs 0%nat. Qed.
Lemma error_repr_differ : differ 9 here error_repr. Proof. differs 0%nat. Qed.
Lemma by_arc_differ : differ 9 here by_arc. Proof. differs 0%nat. Qed.
Lemma remote_differ : differ 9 here remote_record. Proof. differs 0%nat. Qed.
Lemma trait_impl_differ : differ 9 here trait_impl. Proof. differs 1%nat. Qed.
Lemma renamed_impl_differ : differ 9 here renamed_impl. Proof. differs 0%nat. Qed.
Lemma renamed_debug_differ : differ 9 here renamed_debug. Proof. differs 1%nat. Qed.
Lemma raw_name_differ : differ 9 here raw_name. Proof. differs 0%nat. Qed.
Lemma unnamed_field_differ : differ 9 here unnamed_field. Proof. differs 0%nat. Qed.
Lemma use_as_differ : differ 9 (used "Thing") plain_object. Proof. differs 0%nat. Qed.
Lemma two_attrs_differ : differ 9 here two_attrs. Proof. differs 0%nat. Qed.

(** ** Items one side refuses *)
Definition one_field_record (l : list attr) (t : ty) : item :=
  ItRecord false (id "R") [] [SField (Some (id "x")) l t].
Definition uniffi (l : list arg) : attr := AtUniffi (Args l false).
Definition fn1 (l : list arg) (a : list fnarg) : item :=
  ItFn (SFn (id "f") [AtExport (Some (Args l false))] false a None None true).
Definition n_u8 : fnarg := FTyped (Some (id "n")) TU8 ByValue false.
Definition num (z : Z) : option dval := Some (VInt z false).

Definition for_macros : list item :=
  [ (* a field with #[uniffi(default, name = "y")] *)
    one_field_record [uniffi [ADefault None; AName (s "y")]] TU8;
    (* a field with #[uniffi(default = -1)] of type u64 *)
    one_field_record [uniffi [ADefault (num (-1))]] TU64;
    (* #[repr(C)] *)
    ItEnum false false (id "E") [AtRepr [ROther]] [SVariant (id "A") [] None []];
    (* an error with #[uniffi(flat_error, with_try_read)] *)
    ItEnum true false (id "E") [uniffi [AFlag GFlat; AFlag GTryRead]] [SVariant (id "A") [] None []];
    (* the smallest value of #[repr(i64)] *)
    ItEnum false false (id "E") [AtRepr [RTy TI64]]
      [SVariant (id "A") [] (Some (DxNegInt (2 ^ 63))) []];
    (* #[uniffi::export(default(n = 1, n = 2))] *)
    fn1 [ADefaults [(id "n", num 1); (id "n", num 2)] false] [n_u8];
    (* a constructor with an argument of type &Self *)
    ItImpl (Some (id "Obj")) OBJ None [AtExport None]
      [MbFn (SFn (id "make") [AtCtor None] false [FTyped (Some (id "o")) OBJ ByRef true] (Some OBJ)
               None true)];
    (* #[uniffi::export(async_runtime = "tokio")] on a trait *)
    logger [AtExport (Some (args1 (AAsync TOKIO)))] ].
Definition for_sources : list item :=
  [ (* a field with #[uniffi(default = 1u8)] *)
    one_field_record [uniffi [ADefault (Some (VInt 1 true))]] TU8;
    (* a field with two names *)
    one_field_record [uniffi [AName (s "a")]; uniffi [AName (s "b")]] TU8;
    (* a tuple struct *)
    ItRecord false (id "R") [] [SField None [] TU8];
    (* a field with a doc comment from a file *)
    one_field_record [AtDocExpr] TU8;
    (* an error's field with a default *)
    ItEnum true false (id "E") []
      [SVariant (id "A") [] None [SField (Some (id "x")) [uniffi [ADefault (num 1)]] TU8]];
    (* a value that is not a literal, without an integer type *)
    ItEnum false false (id "E") [] [SVariant (id "A") [] (Some DxOther) []];
    (* a default for an argument there is not *)
    fn1 [ADefaults [(id "k", num 1)] false] [n_u8];
    (* a constant in an impl block *)
    ItImpl (Some (id "Obj")) OBJ None [AtExport None] [MbOther];
    (* a trait with a name for the bindings *)
    logger [AtExport (Some (args1 (AName (s "Log"))))] ].
Definition for_neither : list item :=
  [ (* a field of type u8 with #[uniffi(default = 300)] *)
    one_field_record [uniffi [ADefault (num 300)]] TU8;
    (* a field of type u8 with #[uniffi(default = None)] *)
    one_field_record [uniffi [ADefault (Some VNone)]] TU8 ].

Ltac lib_only :=
  match goal with |- library_only 9 ?p ?it =>
    let l := eval vm_compute in (lib p it) in
    match l with Some ?ls => split; [exists ls; show_lib | vm_compute; reflexivity] end
  end.
Lemma library_only_all : Forall (library_only 9 here) for_macros.
Proof. repeat (constructor; [lib_only|]). constructor. Qed.

Ltac src_only :=
  match goal with |- sources_only ?p ?it =>
    let r := eval vm_compute in (sources p it) in
    match r with Some ?ss => split; [vm_compute; reflexivity | exists ss; vm_compute; reflexivity] end
  end.
Lemma sources_only_all : Forall (sources_only here) for_sources.
Proof. repeat (constructor; [src_only|]). constructor. Qed.

Definition lib_bytes (p : place) (it : item) : option (list bytes) :=
  Src_Model.bind (macros p it) (traverse (write (pl_here p))).
Ltac no_reader :=
  match goal with |- unreadable ?p ?it =>
    let m := eval vm_compute in (macros p it) in
    let b := eval vm_compute in (lib_bytes p it) in
    let r := eval vm_compute in (sources p it) in
    match m with Some ?ms => match b with Some ?bs => match r with Some ?ss =>
      split; [exists ms, bs; split; [vm_compute; reflexivity|split] |
              exists ss; vm_compute; reflexivity];
      [ repeat (constructor; [exists (pl_here p); split; vm_compute; reflexivity|]); constructor
      | constructor; exists 9%nat; vm_compute; reflexivity ]
    end end end
  end.
Lemma unreadable_all : Forall (unreadable here) for_neither.
Proof. repeat (constructor; [no_reader|]). constructor. Qed.

(** ** The hypotheses of the main theorem are met *)
Ltac rec_step :=
  match goal with
  | |- _ /\ _ => split
  | |- Forall _ [] => constructor
  | |- Forall _ (_ :: _) => constructor
  | |- utf8 _ => vm_compute; reflexivity
  | |- True => exact I
  | |- (_ <= _)%nat => cbn; lia
  | |- _ = None => reflexivity
  | |- exists n, Some _ = Some n /\ _ => eexists; split; [reflexivity|]
  | |- exists u, TOption _ = TOption u /\ _ => eexists; split; [reflexivity|]
  | |- _ = _ => reflexivity
  | |- _ <> _ => discriminate
  | |- _ \/ _ => first [left; reflexivity | right; repeat split; reflexivity]
  | |- _ < _ => lia
  | |- _ <= _ => lia
  | |- _ => progress cbn
  | |- _ => progress unfold field_ok, variant_ok, flat_variant_ok, fn_ok, param_ok, ty_ok, doc_ok
  end.
Definition meets (x : place * item) : Prop :=
  exists ms bs ss, macros (fst x) (snd x) = Some ms /\ Forall (recordable 9) ms /\
                   Forall2 recorded ms bs /\ sources (fst x) (snd x) = Some ss.
Ltac meet :=
  match goal with |- meets (?p, ?it) =>
    let m := eval vm_compute in (macros p it) in
    let b := eval vm_compute in (lib_bytes p it) in
    let r := eval vm_compute in (sources p it) in
    match m with Some ?ms => match b with Some ?bs => match r with Some ?ss =>
      exists ms, bs, ss; split; [vm_compute; reflexivity|split; [|split; [|vm_compute; reflexivity]]];
      [ repeat rec_step
      | repeat (constructor; [exists (pl_here p); split; vm_compute; reflexivity|]); constructor ]
    end end end
  end.
Lemma examples_meet : Forall meets examples.
Proof. unfold examples. repeat (constructor; [meet|]). constructor. Qed.

(** ** The examples are tidy *)
Ltac each H :=
  cbn in H; repeat match type of H with
  | _ \/ _ => destruct H as [H | H]
  | False => destruct H
  | _ = _ => first [discriminate H | injection H; clear H; intros; subst | subst]
  end.
Ltac tidy_step :=
  match goal with
  | |- _ /\ _ => split
  | |- Forall _ [] => constructor
  | |- Forall _ (_ :: _) => constructor
  | |- NoDup [] => constructor
  | |- NoDup (_ :: _) => constructor
  | H : [] = _ ++ _ |- _ => destruct (app_cons_not_nil _ _ _ H)
  | H : _ :: _ = ?l ++ _ :: _ |- _ => destruct l; cbn [app] in H; injection H; intros; subst; clear H
  | H : [] = ?l ++ _ :: _ |- _ => destruct l; discriminate H
  | H : _ = _ |- _ => discriminate H
  | H : Some _ = Some _ |- _ => injection H; clear H; intros; subst
  | H : In _ _ |- _ => progress each H
  | H : In _ _ \/ In _ _ |- _ => destruct H as [H | H]
  | |- exists t, RTy _ = RTy t /\ _ => eexists; split; [reflexivity|]
  | |- (_ <= _)%nat => cbn; lia
  | |- forall _, _ => intros
  | |- _ = _ => reflexivity
  | |- _ < _ => lia
  | |- _ <= _ => lia
  | |- True => exact I
  | |- ~ _ => intros ?
  | |- _ <> _ => discriminate
  | |- _ => progress cbn in *
  | |- _ => progress unfold tidy_field, tidy_variants, tidy_fn, tidy_defaults, no_self, bare_last, fits in *
  end.
Lemma examples_tidy : Forall (fun x => tidy (snd x)) examples.
Proof.
  unfold examples. repeat (constructor; [cbn [snd]; unfold point, level, failed, run, methods, logger; cbn [tidy]|]); [..|constructor].
  all: repeat tidy_step.
Qed.
