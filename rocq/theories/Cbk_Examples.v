(** Concrete cases of the theorems about foreign implementations. *)
From Verif Require Import Base Meta_Types Cbk_Model Cbk_Spec Cbk_Proofs.
From Coq Require Import Permutation.
Local Open Scope string_scope.
Local Open Scope Z_scope.

Definition mk_fn (name : string) : fn_meta :=
  Fn (S_ "app::storage") (S_ name) None false [] None None None None.
Definition store : list sig :=
  [Sig (S_ "put") (mk_fn "put"); Sig (S_ "get") (mk_fn "get"); Sig (S_ "r_drop") (mk_fn "drop")].
Definition items : list metadata :=
  [MTraitMethod (S_ "Store") 2 (mk_fn "drop"); MTraitMethod (S_ "Other") 0 (mk_fn "put");
   MTraitMethod (S_ "Store") 0 (mk_fn "put"); MTraitMethod (S_ "Store") 1 (mk_fn "get")].

Lemma nodup_by : forall l, distinct l = true -> NoDup l.
Proof.
  induction l as [|x l IH]; intro D; [constructor|]. cbn [distinct] in D. apply andb_prop in D.
  destruct D as [D1 D2]. constructor; [|apply IH; exact D2]. intro I.
  assert (existsb (bytes_eqb x) l = true) as Q by (apply existsb_exists; exists x; split; [exact I | apply str_eqb_refl]).
  rewrite Q in D1. discriminate.
Qed.

Example store_good : good_trait store.
Proof.
  split; [apply nodup_by; vm_compute; reflexivity|]. split; [apply nodup_by; vm_compute; reflexivity|].
  split; [|vm_compute; reflexivity].
  exists (S_ "app::storage"). repeat (constructor; [reflexivity|]). constructor.
Qed.
Example store_described : describes items (S_ "Store") store.
Proof.
  change (Permutation [MTraitMethod (S_ "Store") 2 (mk_fn "drop"); MTraitMethod (S_ "Store") 0 (mk_fn "put");
    MTraitMethod (S_ "Store") 1 (mk_fn "get")]
    [MTraitMethod (S_ "Store") 0 (mk_fn "put"); MTraitMethod (S_ "Store") 1 (mk_fn "get");
     MTraitMethod (S_ "Store") 2 (mk_fn "drop")]).
  eapply perm_trans; [apply perm_swap|]. apply perm_skip, perm_swap.
Qed.
Example store_methods :
  ci_methods true (S_ "Store") items = Ok [mk_fn "put"; mk_fn "get"; mk_fn "drop"] /\
  pl_methods (S_ "Store") items = Ok [mk_fn "put"; mk_fn "get"; mk_fn "drop"].
Proof. split; vm_compute; reflexivity. Qed.

(** UDL: by name. *)
Example udl_methods :
  ci_methods false (S_ "Store") [MMethod (S_ "Store") (mk_fn "put"); MMethod (S_ "Store") (mk_fn "get")] =
    Ok [mk_fn "get"; mk_fn "put"].
Proof. vm_compute. reflexivity. Qed.

(** Integers with an error code: a foreign object that divides. *)
Definition i_same (t : unit) (v w : Z) : Prop := v = w.
Definition i_err (e : bytes) (x : bytes) : Prop := e = x.
Definition i_fit : converters_fit (F := Z) i_same i_err (fun _ v => v) (fun _ f => inl f) (fun b => inl b)
  (fun _ f => inl f) (fun _ w => inl w) (fun x => inl x).
Proof.
  constructor.
  - intros t v w Q. rewrite Q. reflexivity.
  - intros t v w Q. exists w. rewrite Q. split; reflexivity.
  - intros e x Q. exists x. rewrite Q. split; reflexivity.
Qed.

Definition divider (o : Z) (name : str) (ws : list Z) : outcome Z bytes :=
  match ws with
  | [a; b] =>
      if b =? 0 then Raises (Declared (S_ "by zero"))
      else if b =? 13 then Raises (Other (S_ "unlucky"))
      else if b =? 99 then Raises (Fatal (S_ "KeyboardInterrupt"))
      else Returns (o + a / b)
  | _ => Raises (Other (S_ "TypeError"))
  end.
Definition two_args (throws : bool) : mtype unit := MType [tt; tt] (Some tt) throws.
Definition demo (l : lang) (throws : bool) (vs : list Z) :=
  proxy_call (E := bytes) (X := bytes) (fun _ v => v) (fun _ f => inl f) (fun b => inl b) (Some (fun r => r))
    (fun _ f => inl f) (fun _ w => inl w) (fun x => inl x) divider (fun _ => 0) 0 0
    l store (foreign_vtable (map s_meta store)) (fun _ => two_args throws)
    (fun h => if h =? 5 then Some 100 else None) (S_ "r_drop") 5 (two_args throws) vs.

Example demo_value : demo Python true [8; 2] = Some ([Invoke 100 (S_ "drop") [8; 2]], RValue 104).
Proof. vm_compute. reflexivity. Qed.
Example demo_error : demo Python true [8; 0] = Some ([Invoke 100 (S_ "drop") [8; 0]], RError (S_ "by zero")).
Proof. vm_compute. reflexivity. Qed.
Example demo_undeclared : demo Python false [8; 0] = Some ([Invoke 100 (S_ "drop") [8; 0]], RPanics).
Proof. vm_compute. reflexivity. Qed.
Example demo_unexpected : demo Swift true [8; 13] = Some ([Invoke 100 (S_ "drop") [8; 13]], RError (S_ "unlucky")).
Proof. vm_compute. reflexivity. Qed.
Example demo_expected :
  expected i_same i_err (Some (fun r => r)) 0 (two_args true) (divider 100 (S_ "drop") [8; 2]) (RValue 104).
Proof. exact (Ex_value i_same i_err _ 0 (two_args true) tt 104 104 eq_refl eq_refl). Qed.

(** In Python an interrupt is not seen by Rust: the call "returns" zero. *)
Lemma python_interrupt : divider 100 (S_ "drop") [8; 99] = Raises (Fatal (S_ "KeyboardInterrupt")) /\
  demo Python true [8; 99] = Some ([Invoke 100 (S_ "drop") [8; 99]], RValue 0).
Proof. split; vm_compute; reflexivity. Qed.

(** Rust reads only results below 128 and errors of less than three bytes: the foreign object answers
    with others. *)
Definition narrow_lift (t : unit) (f : Z) : Z + bytes := if f <? 128 then inl f else inr (S_ "out of range").
Definition narrow_err (b : bytes) : bytes + bytes := if (length b <? 3)%nat then inl b else inr (S_ "too long").
Definition n_same (t : unit) (v w : Z) : Prop := v = w /\ v < 128.
Definition n_err (e x : bytes) : Prop := e = x /\ (length e < 3)%nat.
Definition n_fit : converters_fit (F := Z) n_same n_err (fun _ v => v) narrow_lift narrow_err
  (fun _ f => inl f) (fun _ w => inl w) (fun x => inl x).
Proof.
  constructor.
  - intros t v w [Q _]. rewrite Q. reflexivity.
  - intros t v w [Q B]. exists w. rewrite <- Q. split; [reflexivity|]. unfold narrow_lift.
    apply Z.ltb_lt in B. rewrite B. reflexivity.
  - intros e x [Q B]. exists x. rewrite <- Q. split; [reflexivity|]. unfold narrow_err.
    apply Nat.ltb_lt in B. rewrite B. reflexivity.
Qed.
Definition narrow (throws : bool) (vs : list Z) :=
  proxy_call (E := bytes) (X := bytes) (fun _ v => v) narrow_lift narrow_err (Some (fun r => r))
    (fun _ f => inl f) (fun _ w => inl w) (fun x => inl x) divider (fun _ => 0) 0 0
    Kotlin store (foreign_vtable (map s_meta store)) (fun _ => two_args throws)
    (fun h => if h =? 5 then Some 100 else None) (S_ "r_drop") 5 (two_args throws) vs.
Example narrow_hypotheses :
  all_same n_same (m_args (two_args true)) [90; 2] [90; 2] /\
  divider 100 (S_ "drop") [90; 2] = Returns 145 /\ narrow_lift tt 145 = inr (S_ "out of range") /\
  divider 100 (S_ "drop") [90; 0] = Raises (Declared (S_ "by zero")) /\
  narrow_err (S_ "by zero") = inr (S_ "too long").
Proof.
  split; [repeat constructor|]. vm_compute. repeat split.
Qed.
Example narrow_result : narrow true [90; 2] =
  Some ([Invoke 100 (S_ "drop") [90; 2]], RError (S_ "out of range")) /\
  narrow false [90; 2] = Some ([Invoke 100 (S_ "drop") [90; 2]], RPanics).
Proof. split; vm_compute; reflexivity. Qed.
Example narrow_error : narrow true [90; 0] =
  Some ([Invoke 100 (S_ "drop") [90; 0]], RError (S_ "Error lifting from rust buffer: too long")).
Proof. vm_compute. reflexivity. Qed.

(** Handles. *)
Definition history : list op :=
  [Pass [10; 11]; CallProxy 1; PassFails [12] 1; DropProxy 0; CallProxy 0; Pass [10]; DropProxy 1; DropProxy 0].
Example history_run :
  log (run history) = [Freed 7; Freed 3; Passed 7 10; Called 3 11; Freed 1; Freed 5; Passed 5 12;
                       Called 3 11; Passed 3 11; Passed 1 10] /\ hmap (run history) = [].
Proof. split; vm_compute; reflexivity. Qed.
Example history_lifted : lifted_all history.
Proof. unfold history, lifted_all. repeat (constructor; [cbn; auto|]). constructor. Qed.

(** The second object is never lifted: its handle stays in the map. *)
Lemma never_lifted_leaks : proxies (run [PassFails [20; 21] 1]) = [] /\
  hmap (run [PassFails [20; 21] 1]) = [(3, 21)] /\
  count (freed 3) (log (run [PassFails [20; 21] 1])) = 0%nat.
Proof. repeat split; vm_compute; reflexivity. Qed.
