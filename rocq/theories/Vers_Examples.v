(** Concrete libraries: accepted, refused, and accepted although they should not be. *)
From Verif Require Import Base Utf8 Meta_Types Meta_Model Meta_Spec Names_Model Csum_Model Csum_Spec
  Csum_Examples Meta_Eq Vers_Model Vers_Spec.
Open Scope Z_scope.

Definition args (l : list ty) : list param := map (fun t => Param (S_ "page") t ByValue None) l.
Definition fn (name : string) (a : list ty) (r : option ty) (doc : option str) : fn_meta :=
  Fn (S_ "app") (S_ name) None false (args a) r None None doc.
Definition macro (m : metadata) : api := Macro (S_ "app") m.

(** A component: a record with a method, an object with a constructor and a method, a trait interface
    with a method, a callback interface with a method, a function, and a function from UDL. *)
Record component := C { c_field : ty; c_recm : list ty; c_meth : list ty; c_cb : list ty; c_fn : list ty; c_fn_ret : ty }.
Definition items (c : component) : list api :=
  [macro (MRecord (Rec (S_ "app") (S_ "Point") None [Field (S_ "x") None (c_field c) None None] None));
   macro (MMethod (S_ "Point") (fn "len" (c_recm c) (Some TU32) None));
   macro (MObject (Obj (S_ "app") (S_ "Store") None IStruct None));
   macro (MConstructor (S_ "Store") (fn "new" [] None None));
   macro (MMethod (S_ "Store") (fn "find" (c_meth c) (Some TString) (Some (S_ "Finds it."))));
   macro (MCallback (S_ "app") (S_ "Log") None);
   macro (MTraitMethod (S_ "Log") 0 (fn "write" (c_cb c) None None));
   macro (MFunc (fn "get" (c_fn c) (Some (c_fn_ret c)) None));
   Udl UMethod (ex_udl 5 None)].
Definition old := C TU32 [TI8] [TI8] [TString] [TI32] TU32.

Example old_fits : Forall (fits 3) (items old).
Proof.
  assert (U : fits 3 (Udl UMethod (ex_udl 5 None))).
  { split; [reflexivity | apply ex_udl_fits; lia]. }
  assert (M : forall m, recordable 3 m -> (exists b, write (S_ "app") m = Some b) -> fits 3 (macro m)).
  { intros m R W. split; [exact R|]. split; [reflexivity | exact W]. }
  unfold items. repeat (apply Forall_cons || apply Forall_nil); try exact U; apply M.
  all: try (eexists; vm_compute; reflexivity).
  all: cbn; unfold fn_ok, ty_ok; cbn; repeat split; try reflexivity; try lia; try discriminate;
    repeat (apply Forall_cons || apply Forall_nil); unfold field_ok, param_ok, ty_ok; cbn;
    repeat split; try reflexivity; try lia; try discriminate.
Qed.
Example old_readable : Forall (readable 3) (items old).
Proof. eapply Forall_impl; [|exact old_fits]. intros [omp m | k f]; cbn [fits readable]; tauto. Qed.

(** A hash for the UDL item: any will do. *)
Definition hash (b : bytes) : Z := calc_checksum b.

Example old_no_duplicates : NoDup (map fst (exports hash (Lib 30 (items old)))).
Proof.
  assert (E : forall l : list str, nodup str_eq_dec l = l -> NoDup l).
  { intros l <-. apply NoDup_nodup. }
  apply E. vm_compute. reflexivity.
Qed.
(** Five items are covered by Kotlin, four by Python. *)
Example old_checks :
  match generate hash 3 Kotlin 30 (items old), generate hash 3 Python 30 (items old) with
  | Some k, Some p => length (b_checks k) = 5%nat /\ length (b_checks p) = 4%nat
  | _, _ => False
  end.
Proof. vm_compute. split; reflexivity. Qed.
Definition opt_eqb {A} (e : A -> A -> bool) (x y : option A) : bool :=
  match x, y with Some a, Some b => e a b | None, None => true | _, _ => false end.
Definition pair_ok (a a' : api) : bool :=
  negb (opt_eqb bytes_eqb (api_symbol a) (api_symbol a')) ||
  negb (opt_eqb Z.eqb (api_checksum hash a) (api_checksum hash a')) ||
  match a, a' with
  | Macro omp m, Macro omp' m' => opt_eqb bytes_eqb (write omp m) (write omp' m')
  | Udl k f, Udl k' f' => bytes_eqb (stream k f) (stream k' f')
  | _, _ => false
  end.
Lemma opt_eqb_refl {A} (e : A -> A -> bool) : (forall x, e x x = true) -> forall x, opt_eqb e x x = true.
Proof. intros E [x|]; [apply E | reflexivity]. Qed.
Lemma bytes_eqb_true a b : bytes_eqb a b = true <-> a = b.
Proof. destruct (bytes_eqb_spec a b); split; congruence. Qed.
Lemma pairs_ok l l' : forallb (fun a => forallb (pair_ok a) l') l = true -> collision_free hash l l'.
Proof.
  intros F a a' I I' S1 S2. rewrite forallb_forall in F. specialize (F a I).
  rewrite forallb_forall in F. specialize (F a' I'). unfold pair_ok in F.
  rewrite S1, S2, !opt_eqb_refl in F; [|exact Z.eqb_refl | intro; apply bytes_eqb_true; reflexivity].
  cbn [negb orb] in F. destruct a as [omp m | k f], a' as [omp' m' | k' f']; try discriminate.
  - destruct (write omp m), (write omp' m'); try discriminate; [|reflexivity].
    apply bytes_eqb_true in F. congruence.
  - apply bytes_eqb_true. exact F.
Qed.
(** A library with another record and other methods. *)
Definition newer := C TU64 [TU8] [TI16; TI8] [TString] [TI32] TU32.
Example newer_collision_free :
  collision_free hash (items old) (items newer).
Proof. apply pairs_ok. vm_compute. reflexivity. Qed.

(** [try t o v c]: bindings of [old], contract version 30, meet a library of [c] with version [v]. *)
Definition try (t : target) (o : options) (v : Z) (c : component) : option bool :=
  match generate hash 3 t 30 (items old) with
  | Some b => Some (load hash o b (Lib v (items c)))
  | None => None
  end.
Definition std := Options false false.
Definition src := Options true false.

Example same_accepted : map (fun t => try t std 30 old) [Python; Kotlin; Swift; Ruby]
  = [Some true; Some true; Some true; Some true].
Proof. vm_compute. reflexivity. Qed.
Example version_refused : map (fun t => try t std 31 old) [Python; Kotlin; Swift; Ruby]
  = [Some false; Some false; Some false; Some true].
Proof. vm_compute. reflexivity. Qed.
Example method_refused :
  map (fun t => try t std 30 (C TU32 [TI8] [TI16] [TString] [TI32] TU32)) [Python; Kotlin; Swift; Ruby]
  = [Some false; Some false; Some false; Some true].
Proof. vm_compute. reflexivity. Qed.
Example callback_refused :
  map (fun t => try t std 30 (C TU32 [TI8] [TI8] [TBytes] [TI32] TU32)) [Python; Kotlin; Swift; Ruby]
  = [Some true; Some false; Some false; Some true].
Proof. vm_compute. reflexivity. Qed.
Example function_gone : forall t o,
  match generate hash 3 t 30 (items old) with
  | Some b => load hash o b (Lib 30 (removelast (removelast (items old)))) = false
  | None => False
  end.
Proof. intros [] [[] []]; vm_compute; reflexivity. Qed.
Example collision_accepted :
  map (fun t => try t std 30 (C TU32 [TI8] [TI8] [TString] [TString] TU8)) [Python; Kotlin; Swift; Ruby]
  = [Some true; Some true; Some true; Some true].
Proof. vm_compute. reflexivity. Qed.

Example version_ok : check_compatible_version (S_ "0.31.0") (S_ "0.31.0") = Ok true.
Proof. vm_compute. reflexivity. Qed.
Example version_other : check_compatible_version (S_ "0.31.0") (S_ "0.31.1") = Ok false.
Proof. vm_compute. reflexivity. Qed.

(** With the checksums left out, Kotlin and Swift accept a changed method but not another version. *)
Definition omit := Options false true.
Example omit_accepts :
  map (fun t => (try t omit 30 (C TU32 [TI8] [TI16] [TString] [TI32] TU32), try t omit 31 old)) [Kotlin; Swift]
  = [(Some true, Some false); (Some true, Some false)].
Proof. vm_compute. reflexivity. Qed.
Example omit_hypotheses :
  (~ sums_checked Kotlin omit /\ version_checked Kotlin omit) /\
  forall s, In s (map fst (exports hash (Lib 30 (items old)))) <->
            In s (map fst (exports hash (Lib 30 (items (C TU32 [TI8] [TI16] [TString] [TI32] TU32))))).
Proof.
  split; [split; [intros [_ H]; discriminate H | exact I]|].
  intro s. assert (E : map fst (exports hash (Lib 30 (items old))) =
    map fst (exports hash (Lib 30 (items (C TU32 [TI8] [TI16] [TString] [TI32] TU32))))) by (vm_compute; reflexivity).
  rewrite E. tauto.
Qed.
