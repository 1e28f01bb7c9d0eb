(** Concrete types for C37. *)
From Verif Require Import Base Meta_Types Canon_Model Canon_Spec.

Definition m_ : str := S_ "my_crate".

(** A component with nested types. *)
Definition comp : list ty :=
  [ TMap TString (TSeq (TOption (TRecord m_ (S_ "Foo"))));
    TOption (TSeq (TMap TI8 (TSet (TEnum m_ (S_ "Bar")))));
    TMap TBytes TU32; TMap TI8 TU32; TBox (TRecord m_ (S_ "Foo"));
    TCustom m_ (S_ "Url") TString; TCallback m_ (S_ "Logger") ].

Ltac parts := repeat match goal with H : part _ _ |- _ => inversion H; subst; clear H end;
  try match goal with H : user_name _ <> None |- _ => cbn in H; congruence end.

Example comp_ok : one_type_per_name comp /\ Forall builtin_keys comp.
Proof.
  split.
  - assert (H : forall t u, In t comp -> part t u ->
              In u [TRecord m_ (S_ "Foo"); TEnum m_ (S_ "Bar"); TCustom m_ (S_ "Url") TString;
                    TCallback m_ (S_ "Logger")]).
    { intros s x HS Q. repeat (destruct HS as [<-|HS]); try destruct HS; parts; cbn; tauto. }
    intros t t' u u' I I' P P' E.
    pose proof (H _ _ I P) as A. pose proof (H _ _ I' P') as B.
    cbn in A, B. decompose [or] A; decompose [or] B; subst; try contradiction; try reflexivity;
      discriminate E.
  - repeat constructor; intros u P; parts.
Qed.

Example comp_names : map kotlin_name comp =
  map S_ ["MapStringSequenceOptionalTypeFoo"%string; "OptionalSequenceMapByteSetTypeBar"%string;
          "MapByteArrayUInt"%string; "MapByteUInt"%string; "TypeFoo"%string; "TypeUrl"%string;
          "TypeLogger"%string].
Proof. vm_compute. reflexivity. Qed.

(** Maps with user-defined keys. *)
Definition map1 : ty := TMap (TEnum m_ (S_ "Foo")) (TRecord m_ (S_ "TypeBar")).
Definition map2 : ty := TMap (TEnum m_ (S_ "FooType")) (TRecord m_ (S_ "Bar")).

Example maps_ok : one_type_per_name [map1; map2].
Proof.
  assert (H : forall t u, In t [map1; map2] -> part t u ->
            In u [TEnum m_ (S_ "Foo"); TRecord m_ (S_ "TypeBar"); TEnum m_ (S_ "FooType");
                  TRecord m_ (S_ "Bar")]).
  { intros s x HS Q. repeat (destruct HS as [<-|HS]); try destruct HS; unfold map1, map2 in Q; parts;
      cbn; tauto. }
  intros t t' u u' I I' P P' E.
  pose proof (H _ _ I P) as A. pose proof (H _ _ I' P') as B.
  cbn in A, B. decompose [or] A; decompose [or] B; subst; try contradiction; try reflexivity;
    discriminate E.
Qed.

Lemma map_keys_clash :
  exists types t t', one_type_per_name types /\ In t types /\ In t' types /\
    unboxed t <> unboxed t' /\ canonical_name t = canonical_name t' /\
    kotlin_name t = kotlin_name t' /\ forall cn, swift_name cn t = swift_name cn t'.
Proof.
  exists [map1; map2], map1, map2. refine (conj maps_ok _).
  refine (conj (or_introl eq_refl) (conj (or_intror (or_introl eq_refl)) _)).
  refine (conj _ (conj eq_refl (conj eq_refl (fun cn => eq_refl)))). discriminate.
Qed.

Lemma namesakes_clash :
  exists t t', builtin_keys t /\ builtin_keys t' /\ unboxed t <> unboxed t' /\
    canonical_name t = canonical_name t' /\ kotlin_name t = kotlin_name t' /\
    forall cn, swift_name cn t = swift_name cn t'.
Proof.
  exists (TRecord (S_ "mine") (S_ "Config")), (TRecord (S_ "theirs") (S_ "Config")).
  refine (conj I (conj I (conj _ (conj eq_refl (conj eq_refl (fun cn => eq_refl)))))). discriminate.
Qed.
