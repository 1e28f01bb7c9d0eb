(** Concrete interfaces and values for C49 to C52. *)
From Coq Require Import Permutation Relation_Operators.
From Verif Require Import Base Meta_Types Canon_Model Sort_Model Sort_Spec.
From Verif Require Import Jni_Model Jni_Spec Jni_Layout_Proofs Jni_Mem_Proofs Jni_Proofs Jni_Gen_Proofs.
Local Open Scope string_scope.
Local Open Scope list_scope.
Local Open Scope Z_scope.

Definition r_ (n : string) : ty := TRecord (S_ "m") (S_ n).
Definition e_ (n : string) : ty := TEnum (S_ "m") (S_ n).
Definition api : ty := TObject (S_ "m") (S_ "Api") IStruct.
Definition no_flat : ty -> bool := fun _ => false.

(** An empty heap. *)
Definition h0 : heap := Heap (fun _ => None) 8.
Example h0_ok : heap_ok h0.
Proof. constructor; [reflexivity|reflexivity|intros; reflexivity]. Qed.

Ltac nodup := cbn; repeat constructor; cbn; intuition discriminate.
Ltac closed_tac :=
  let d := fresh in let t := fresh in let D := fresh in let T := fresh in
  intros d t D T; cbn in D;
  repeat (destruct D as [<-|D]); try (destruct D; fail); cbn in T;
  repeat (destruct T as [<-|T]); try (destruct T; fail); cbn; try exact I;
  try (eexists; tauto); try tauto.
Ltac formed :=
  repeat (apply Forall_cons; [cbn [well_formed]; first [exact I|reflexivity|do 2 eexists; reflexivity|do 3 eexists; reflexivity]|]);
  apply Forall_nil.
Ltac iface := constructor; [formed|nodup|closed_tac].

(** ** An interface with most kinds of types, in no particular order *)

Definition url : ty := TCustom (S_ "m") (S_ "Url") TString.

Definition ds1 : list type_definition :=
  [ TDSimple TString;
    TDRecord (r_ "Scene") [TSeq (e_ "Shape"); url; TBox (e_ "Shape"); TMap TString (TSeq (e_ "Shape")); TSet TU16; api];
    TDEnum (e_ "Shape") [[r_ "Point"]; [TString; TOption (r_ "Point")]; []];
    TDOptional (TOption (r_ "Point")) (r_ "Point");
    TDRecord (r_ "Point") [TU8; TF64];
    TDBox (TBox (e_ "Shape")) (e_ "Shape");
    TDMap (TMap TString (TSeq (e_ "Shape"))) TString (TSeq (e_ "Shape"));
    TDSequence (TSeq (e_ "Shape")) (e_ "Shape");
    TDSet (TSet TU16) TU16;
    TDCustom url TString;
    TDInterface api [] [Callable [r_ "Scene"] (Some (r_ "Scene")) None] None ].

Example ds1_interface : interface ds1.
Proof. iface. Qed.

Example ds1_solid : solid ds1.
Proof. split; intros s D; cbn in D; intuition discriminate. Qed.

Ltac fin M :=
  repeat match type of M with _ \/ _ => destruct M as [M|M]; [subst; cbn; tauto|] end;
  first [destruct M; fail|subst; cbn; tauto].

Example ds1_names : names_distinct ds1.
Proof.
  assert (H : forall t, in_defs ds1 t ->
    In t [api; r_ "Scene"; r_ "Point"; e_ "Shape"; TSeq (e_ "Shape"); url; TBox (e_ "Shape");
          TMap TString (TSeq (e_ "Shape")); TSet TU16; TU16; TU8; TF64; TString; TOption (r_ "Point")]).
  { intros t [d [D M]]. repeat (destruct D as [<-|D]); try destruct D;
      (destruct M as [<-|M]; [cbn; tauto|]); cbn in M; try tauto; try (fin M; fail).
    - destruct M as (v & V & M). repeat (destruct V as [<-|V]); try (destruct V; fail); cbn in M; fin M.
    - destruct M as [[]|[[c [[<-|[]] M]]|[vms [c [Q _]]]]]; [|discriminate Q].
      destruct M as [M|[M|M]]; cbn in M.
      + destruct M as [<-|[]]; cbn; tauto.
      + injection M as <-. cbn. tauto.
      + discriminate M. }
  intros t t' T T' E. apply H in T, T'. cbn in T, T'.
  decompose [or] T; decompose [or] T'; subst; try contradiction; try reflexivity; discriminate E.
Qed.

Example ds1_supported : supported ds1.
Proof.
  intros d t D T. cbn in D. repeat (destruct D as [<-|D]); try (destruct D; fail); cbn in T;
    repeat (destruct T as [<-|T]); try (destruct T; fail); exact I.
Qed.

Fixpoint base (t : ty) : ty := match t with TCustom _ _ b => base b | _ => t end.
Definition w1 (t : ty) : Z :=
  let b := base t in
  if ty_eqb b (r_ "Scene") then 2000
  else if ty_eqb b (e_ "Shape") then 500
  else if ty_eqb b (TOption (r_ "Point")) then 200
  else if ty_eqb b (r_ "Point") then 100
  else 24.

Example ds1_light : light ds1.
Proof.
  exists w1. constructor.
  - intros t. unfold w1. cbv zeta.
    repeat match goal with |- context [if ?b then _ else _] => destruct b end; lia.
  - intros mp n b. unfold w1. cbn [base]. lia.
  - intros t fs D. cbn in D. decompose [or] D; try discriminate; try contradiction;
      match goal with E : _ = _ |- _ => injection E as <- <- end; vm_compute; discriminate.
  - intros t vs v D V. cbn in D. decompose [or] D; try discriminate; try contradiction.
    match goal with E : _ = _ |- _ => injection E as <- <- end.
    repeat (destruct V as [<-|V]); try (destruct V; fail); vm_compute; discriminate.
  - intros t i D. cbn in D. decompose [or] D; try discriminate; try contradiction.
    match goal with E : _ = _ |- _ => injection E as <- <- end. vm_compute. discriminate.
Qed.

Example ds1_plain : plain no_flat ds1.
Proof. intros t vs v D F. discriminate. Qed.

(** Nothing needs anything of greater rank. *)
Definition rank1 (t : ty) : Z :=
  if ty_eqb t api then 5 else if ty_eqb t (r_ "Scene") then 5
  else if ty_eqb t (TMap TString (TSeq (e_ "Shape"))) then 4
  else if ty_eqb t (TSeq (e_ "Shape")) then 4
  else if ty_eqb t (TBox (e_ "Shape")) then 4
  else if ty_eqb t (e_ "Shape") then 3
  else if ty_eqb t (TOption (r_ "Point")) then 2
  else if ty_eqb t (r_ "Point") then 1
  else if ty_eqb t url then 1 else 0.

Lemma rank1_needs x t : In x ds1 -> mentions x t -> rank1 t <= rank1 (self_type x).
Proof.
  intros D M. cbn in D. repeat (destruct D as [<-|D]); try (destruct D; fail); cbn in M; try (destruct M; fail).
  all: try (repeat match type of M with _ \/ _ => destruct M as [M|M]; [subst; vm_compute; discriminate|] end;
            first [destruct M; fail|subst; vm_compute; discriminate]).
  - destruct M as (v & V & M). repeat (destruct V as [<-|V]); try (destruct V; fail); cbn in M;
    (repeat match type of M with _ \/ _ => destruct M as [M|M]; [subst; vm_compute; discriminate|] end;
            first [destruct M; fail|subst; vm_compute; discriminate]).
  - destruct M as [[]|[[c [[<-|[]] M]]|[vms [c [Q _]]]]]; [|discriminate Q].
    destruct M as [M|[M|M]]; cbn in M.
    + destruct M as [<-|[]]. vm_compute. discriminate.
    + injection M as <-. vm_compute. discriminate.
    + discriminate M.
Qed.

Example ds1_acyclic : acyclic ds1.
Proof.
  assert (forall a b, needs_within ds1 a b -> rank1 (self_type b) <= rank1 (self_type a)) as R.
  { intros a b N. induction N as [a b (A & B & N)|a b c N1 I1 N2 I2]; [now apply rank1_needs|lia]. }
  assert (forall x y, In x ds1 -> In (self_type y) (direct x) ->
            match self_type y with TRecord _ _ | TEnum _ _ | TOption _ | TCustom _ _ _ => True | _ => False end ->
            rank1 (self_type y) < rank1 (self_type x)) as L.
  { intros x y D T K. cbn in D. repeat (destruct D as [<-|D]); try (destruct D; fail); cbn in T; try (destruct T; fail);
      repeat match type of T with
      | _ \/ _ => destruct T as [T|T]; [rewrite <- T in *; try (destruct K; fail); vm_compute; reflexivity|]
      end; destruct T. }
  intros x y X Y T. destruct (self_type y) eqn:E; try exact I;
    (intros N; apply R in N; assert (rank1 (self_type y) < rank1 (self_type x)); [|lia];
     apply L; rewrite ?E; auto).
Qed.

Definition g1 : gen :=
  match generate_root no_flat ds1 with Ret g => g | Bad _ => Gen [] no_flat [] [] end.

Example ds1_generates : generate_root no_flat ds1 = Ret g1.
Proof. vm_compute. reflexivity. Qed.

(** Two shapes, three named ones, a boxed one, a custom string and a set. *)
Definition point : val := VRec [VInt 7; VFloat 4611686018427387904].
Definition shapes : list val :=
  [VEnum 0 [point]; VEnum 1 [VStr [104; 233; 128512]; VSome point]; VEnum 2 []].
Definition scene : val :=
  VRec [VColl shapes; VStr [117; 114; 108]; VBox (VEnum 1 [VStr []; VNone]);
        VColl [VStr [97]; VColl shapes; VStr [98]; VColl []]; VColl [VInt 1; VInt 65535]; VObj 4096].

(** Deciding the parts of [good] that are numbers. *)
Definition ok_string (s : list Z) : bool :=
  forallb (fun c => (0 <=? c) && (c <=? 1114111) && negb ((55296 <=? c) && (c <=? 57343))) s &&
  (Z.of_nat (length s) <=? isize_max).
Lemma ok_string_good s : ok_string s = true -> good_string s.
Proof.
  intros H. apply andb_true_iff in H. destruct H as [A B]. split; [|now apply Z.leb_le].
  apply Forall_forall. intros c C. apply (proj1 (forallb_forall _ _) A) in C.
  apply andb_true_iff in C. destruct C as [C D]. apply andb_true_iff in C. destruct C as [C E].
  apply Z.leb_le in C, E. split; [lia|]. intros [P Q].
  apply negb_true_iff, andb_false_iff in D. destruct D as [D|D]; apply Z.leb_gt in D; lia.
Qed.

Definition ok_range (lo z hi : Z) : bool := (lo <=? z) && (z <? hi).
Lemma ok_range_spec lo z hi : ok_range lo z hi = true -> lo <= z < hi.
Proof. unfold ok_range. intros H. apply andb_true_iff in H. destruct H as [A B]. apply Z.leb_le in A. apply Z.ltb_lt in B. lia. Qed.

Definition ok_int (t : ty) (z : Z) : bool :=
  match t with
  | TU8 => ok_range 0 z (2 ^ 8) | TI8 => ok_range (- 2 ^ 7) z (2 ^ 7)
  | TU16 => ok_range 0 z (2 ^ 16) | TI16 => ok_range (- 2 ^ 15) z (2 ^ 15)
  | TU32 => ok_range 0 z (2 ^ 32) | TI32 => ok_range (- 2 ^ 31) z (2 ^ 31)
  | TU64 => ok_range 0 z (2 ^ 64) | TI64 => ok_range (- 2 ^ 63) z (2 ^ 63)
  | _ => false
  end.
Lemma ok_int_fits t z : ok_int t z = true -> int_fits t z.
Proof. destruct t; cbn [ok_int int_fits]; try discriminate; apply ok_range_spec. Qed.

Definition not_callback (t : ty) : bool := match t with TCallback _ _ => false | _ => true end.

Definition ok_fits (g : gen) (ts : list ty) (n : nat) : bool :=
  match item_of (g_lay g) ts with
  | Ret x => Z.of_nat n * fst x <=? int32_max
  | Bad _ => true
  end.
Lemma ok_fits_spec g ts n : ok_fits g ts n = true -> fits g ts n.
Proof. unfold ok_fits, fits. intros H x E. rewrite E in H. now apply Z.leb_le. Qed.

Fixpoint all2 {A B} (f : A -> B -> bool) (l : list A) (r : list B) : bool :=
  match l, r with
  | [], [] => true
  | a :: l, b :: r => f a b && all2 f l r
  | _, _ => false
  end.

(** A decision procedure for values without bytes, durations, timestamps and floats in options. *)
Fixpoint goodb (g : gen) (n : nat) (inb : bool) (t : ty) (v : val) : bool :=
  match n with
  | O => false
  | S n =>
      match t, v with
      | TBool, VBool _ => true
      | TF32, VFloat b => ok_range 0 b (2 ^ 32)
      | TF64, VFloat b => ok_range 0 b (2 ^ 64)
      | TString, VStr s => ok_string s
      | TObject _ _ _, VObj z => ok_range (- 2 ^ 63) z (2 ^ 63)
      | TBox i, VBox v => goodb g n false i v
      | TCustom _ _ b, _ => goodb g n inb b v
      | TOption i, VNone => not_callback i
      | TOption i, VSome v =>
          match i with TF32 | TF64 | TObject _ _ _ => false | _ => true end &&
          not_callback i && negb (is_null v) && goodb g n inb i v
      | TSeq i, VColl vs =>
          forallb (goodb g n true i) vs &&
          match array_type i, inb with
          | Some _, false => Z.of_nat (length vs) <=? int32_max
          | _, _ => ok_fits g [i] (length vs)
          end
      | TSet i, VColl vs => forallb (goodb g n true i) vs && ok_fits g [i] (length vs)
      | TMap k w, VColl vs =>
          let len := Nat.div (length vs) 2 in
          Nat.eqb (length vs) (2 * len) && all2 (goodb g n true) (cycle len [k; w]) vs &&
          ok_fits g [k; w] len
      | TRecord _ _, VRec vs =>
          match find_record (g_defs g) t with Some fs => all2 (goodb g n inb) fs vs | None => false end
      | TEnum _ _, VEnum i vs =>
          negb (g_flat g t) && (Z.of_nat i <? 2 ^ 31) &&
          match find_enum (g_defs g) t with
          | Some variants =>
              match nth_error variants i with Some fs => all2 (goodb g n inb) fs vs | None => false end
          | None => false
          end
      | _, VInt z => ok_int t z
      | _, _ => false
      end
  end.

Lemma all2_forall {A B} (f : A -> B -> bool) (P : A -> B -> Prop) : (forall a b, f a b = true -> P a b) ->
  forall l r, all2 f l r = true -> Forall2 P l r.
Proof.
  intros H. induction l as [|a l IH]; intros [|b r] E; cbn [all2] in E; try discriminate; [constructor|].
  apply andb_true_iff in E. destruct E as [E1 E2]. constructor; auto.
Qed.

Lemma forallb_all {A} (f : A -> bool) (P : A -> Prop) l : (forall a, f a = true -> P a) ->
  forallb f l = true -> Forall P l.
Proof. intros H E. apply Forall_forall. intros a I. apply H. now apply (proj1 (forallb_forall _ _) E). Qed.

Lemma not_callback_spec t : not_callback t = true -> forall mp n, t <> TCallback mp n.
Proof. intros H mp n ->. discriminate. Qed.

Lemma goodb_good g s : forall n inb t v, goodb g n inb t v = true -> good g s n inb t v.
Proof.
  induction n as [|n IH]; intros inb t v H; [discriminate|].
  destruct t; cbn [goodb good] in H |- *; destruct v; try discriminate; try exact I;
    try (now apply ok_int_fits); try (now apply ok_range_spec); try (now apply ok_string_good);
    try (now apply IH).
  - destruct (find_record (g_defs g) (TRecord mp name)) eqn:F; [|discriminate].
    eexists. split; [eapply find_record_in; exact F|]. eapply all2_forall; [|exact H]. auto.
  - apply andb_true_iff in H. destruct H as [H K]. apply andb_true_iff in H. destruct H as [F H].
    apply negb_true_iff in F. apply Z.ltb_lt in H. split; [exact F|]. split; [exact H|].
    destruct (find_enum (g_defs g) (TEnum mp name)) eqn:E; [|discriminate].
    destruct (nth_error l0 i) eqn:N; [|discriminate]. exists l0, l1. split; [eapply find_enum_in; exact E|].
    split; [exact N|]. eapply all2_forall; [|exact K]. auto.
  - right. now apply not_callback_spec.
  - apply andb_true_iff in H. destruct H as [H K]. apply andb_true_iff in H. destruct H as [H N].
    apply andb_true_iff in H. destruct H as [H C]. apply negb_true_iff in N.
    split; [|split; [exact N|now apply IH]]. right. split; [|now apply not_callback_spec].
    destruct t; try discriminate; exact I.
  - apply andb_true_iff in H. destruct H as [H K]. split; [eapply forallb_all; [|exact H]; auto|].
    destruct (array_type t); [destruct inb|]; try (now apply ok_fits_spec). now apply Z.leb_le.
  - apply andb_true_iff in H. destruct H as [H K]. split; [eapply forallb_all; [|exact H]; auto|].
    now apply ok_fits_spec.
  - apply andb_true_iff in H. destruct H as [H K]. apply andb_true_iff in H. destruct H as [H L].
    apply Nat.eqb_eq in H. eexists. split; [exact H|]. split; [eapply all2_forall; [|exact L]; auto|].
    now apply ok_fits_spec.
Qed.

Example scene_good s : good g1 s 9 false (r_ "Scene") scene.
Proof. apply goodb_good. vm_compute. reflexivity. Qed.

(** It arrives, and so the theorem says something about it. *)
Example scene_passes :
  match pass g1 9 Rs (r_ "Scene") scene h0 with Ret (v, h) => v = scene | Bad _ => False end /\
  match pass g1 9 Kt (r_ "Scene") scene h0 with Ret (v, h) => v = scene | Bad _ => False end.
Proof. vm_compute. repeat split. Qed.
