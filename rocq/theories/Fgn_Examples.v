(** A sample interface and values used to show that the hypotheses of the
    agreement theorems are satisfiable, and the witnesses of the refutations. *)
From Verif Require Import Base Utf8 Wire_Model Wire_Spec Wire_Examples Fgn_Model Fgn_Spec
  Wire_Proofs Fgn_Proofs Fgn_Proofs3 Fgn_Proofs5.
Local Open Scope string_scope.
Local Open Scope list_scope.
Local Open Scope Z_scope.

Definition fx_defs (n : string) : option def :=
  if (n =? "Kind")%string then Some (DEnum true [[]; []])
  else if (n =? "Event")%string
       then Some (DRecord [TTimestamp; TDuration; TFloat false; TString; TVec (TInt false W8)])
  else if (n =? "Url")%string then Some (DCustom TString)
  else if (n =? "Obj")%string then Some DObject
  else if (n =? "Error")%string then Some (DFlat 3 true)
  else None.

Definition fx_env : env := {|
  defs := fx_defs; clift := fun _ v => Ok v; display := fun _ _ => [] |}.

Definition no_hash : string -> bool := fun _ => false.

(** [HashMap<Kind, Option<Event>>] *)
Definition fx_ty : ty := TMap (TNamed "Kind") (TOption (TNamed "Event")).

(** 1.5 seconds before 1970, 2.0000005 seconds, 0.1f32, a two-code-point string,
    two bytes. *)
Definition fx_val : val :=
  VMap [(VEnum 0 [], VSome (VRec [VTime (-1500000000); VDur 2000000500; VFloat 0x3DCCCCCD;
                                  VStr [xc3; xa9; xf0; x9d; x84; x9e];
                                  VSeq [VInt 255; VInt 0]]));
        (VEnum 1 [], VNone)].
Definition fx_bytes : bytes := match write fx_env fx_ty fx_val with Ok b => b | _ => [] end.

(** What Python, Kotlin and Ruby make of it. *)
Definition fx_py : fval :=
  FMap [(FEnum "Kind" 0 [], FRec "Event" [FTime (-1500000); FDur 2000000; FFloat 0x3FB99999A0000000;
                                          FStr [0xe9; 0x1d11e]%N; FBytes [xff; x00]]);
        (FEnum "Kind" 1 [], FNone)].
Definition fx_kt : fval :=
  FMap [(FEnum "Kind" 0 [], FRec "Event" [FTime (-1500000000); FDur 2000000500; FFloat 0x3DCCCCCD;
                                          FStr [0xe9; 0xd834; 0xdd1e]%N; FBytes [xff; x00]]);
        (FEnum "Kind" 1 [], FNone)].
Definition fx_rb : fval :=
  FMap [(FEnum "Kind" 0 [], FRec "Event" [FTime (-1500000000); FDur 2000000500; FFloat 0x3FB99999A0000000;
                                          FStr [0xe9; 0x1d11e]%N; FBytes [xff; x00]]);
        (FEnum "Kind" 1 [], FNone)].

Definition fx_types : list ty :=
  [fx_ty; TNamed "Kind"; TOption (TNamed "Event"); TNamed "Event"; TTimestamp; TDuration;
   TFloat false; TString; TVec (TInt false W8); TInt false W8].
Lemma fx_uses u : uses fx_env fx_ty u -> In u fx_types.
Proof. intros U. refine (uses_closed fx_env fx_types _ fx_ty u U (or_introl eq_refl)). vm_compute. reflexivity. Qed.

Lemma kind_uses u : uses fx_env (TNamed "Kind") u -> u = TNamed "Kind".
Proof.
  intros U. assert (In u [TNamed "Kind"]) as [<-|[]]; [|reflexivity].
  refine (uses_closed fx_env [TNamed "Kind"] _ _ u U (or_introl eq_refl)). vm_compute. reflexivity.
Qed.

Lemma fx_typed : has_type fx_env fx_ty fx_val.
Proof.
  repeat first [ reflexivity | (split; [lia|]) |
    apply ht_map | apply ht_some | apply ht_none | eapply ht_enum | eapply ht_rec
    | apply ht_seq | apply ht_sint | apply ht_uint | apply ht_str | apply ht_time | apply ht_dur | apply ht_float
    | apply Forall_cons | apply Forall_nil | apply Forall2_cons | apply Forall2_nil ];
    try (cbn; repeat constructor; cbn; intuition discriminate);
    try (vm_compute; intuition congruence).
Qed.

Lemma fx_plain : plain_options fx_env fx_ty.
Proof.
  intros u U N. apply fx_uses in U. cbn in U. in_cases; try discriminate.
  match goal with X : TOption _ = TOption _ |- _ => injection X as <- end.
  inversion N; subst. discriminate.
Qed.

Lemma fx_keys : key_types fx_env (py_keys fx_env no_hash) fx_ty.
Proof.
  intros u U. apply fx_uses in U. cbn in U. in_cases; try exact I.
  split; [|split; intros X; apply kind_uses in X; discriminate].
  eapply pk_enum; [reflexivity|]. left. repeat constructor.
Qed.

Lemma fx_no_f32_keys : no_f32_keys fx_env fx_ty.
Proof.
  intros u U. apply fx_uses in U. cbn in U. in_cases; try exact I.
  intros X. apply kind_uses in X. discriminate.
Qed.

Ltac leaf_cases H := cbn in H; in_cases;
  repeat match goal with X : (_, _) = (_, _) |- _ => injection X as <- <- end.

Lemma fx_py_leaves : leaves fx_env py_leaf_of fx_ty fx_val.
Proof.
  intros u w H. leaf_cases H; try exact I.
  - vm_compute. intuition congruence.
  - vm_compute. congruence.
  - intros _ [X _]. vm_compute in X. discriminate.
Qed.
Lemma fx_kt_leaves : leaves fx_env kt_leaf_of fx_ty fx_val.
Proof.
  intros u w H. leaf_cases H; try exact I.
  - vm_compute. intuition congruence.
  - vm_compute. congruence.
Qed.
Lemma fx_rb_leaves : leaves fx_env rb_leaf_of fx_ty fx_val.
Proof.
  intros u w H. leaf_cases H; try exact I.
  - vm_compute. congruence.
  - intros _ [X _]. vm_compute in X. discriminate.
Qed.

Lemma fx_instant : no_lost_instant fx_val.
Proof. intros t H. cbn in H. in_cases; try discriminate. injection H as <-. lia. Qed.

Lemma fx_written : write fx_env fx_ty fx_val = Ok fx_bytes /\ (length fx_bytes = 58)%nat.
Proof. vm_compute. split; reflexivity. Qed.

Lemma fx_py_read : fread (python fx_env no_hash true) fx_env 4 fx_ty fx_bytes = Ok (fx_py, []).
Proof. vm_compute. reflexivity. Qed.
Lemma fx_kt_read : fread kotlin fx_env 4 fx_ty fx_bytes = Ok (fx_kt, []).
Proof. vm_compute. reflexivity. Qed.
Lemma fx_rb_read : fread ruby fx_env 4 fx_ty fx_bytes = Ok (fx_rb, []).
Proof. vm_compute. reflexivity. Qed.

(** The other way. *)
Lemma fx_py_written : exists bs, fwrite (python fx_env no_hash true) fx_env 4 fx_ty fx_py = Ok bs /\ (length bs = 58)%nat.
Proof. vm_compute. eexists. split; reflexivity. Qed.
Lemma fx_kt_written : fwrite kotlin fx_env 4 fx_ty fx_kt = Ok fx_bytes.
Proof. vm_compute. reflexivity. Qed.
Lemma fx_rb_written : fwrite ruby fx_env 4 fx_ty fx_rb = Ok fx_bytes.
Proof. vm_compute. reflexivity. Qed.
Lemma fx_kt_size : kalloc fx_env 4 fx_ty fx_kt = Ok 61.
Proof. vm_compute. reflexivity. Qed.

Ltac two_keys := constructor; [intros [X|[]]; discriminate X|constructor; [intros []|constructor]].
Ltac leaves_tac :=
  match goal with |- fwf _ _ => intros g H; cbn in H; in_cases end;
  (split; [try exact I; try (vm_compute; intuition congruence)|try exact I; try (cbn [map fst]; two_keys)]).

Lemma fx_py_wf : fwf py_leaf fx_py.
Proof. leaves_tac. Qed.
Lemma fx_py_no_neg : no_neg_dur fx_py.
Proof. intros x H. cbn in H. in_cases; try discriminate. injection H as <-. lia. Qed.
Lemma fx_kt_wf : fwf kt_leaf fx_kt.
Proof. leaves_tac. Qed.
Lemma fx_rb_wf : fwf rb_leaf fx_rb.
Proof. leaves_tac. Qed.

(** * Where the languages disagree with Rust *)

(** [Some(None)] and [None]. *)
Lemma nested_options E t (L : lang) d rest : opt_of L 0 = Ok false -> opt_of L 1 = Ok true ->
  exists bs bs', write E (TOption (TOption t)) (VSome VNone) = Ok bs /\
    write E (TOption (TOption t)) VNone = Ok bs' /\ bs <> bs' /\
    fread L E (S (S d)) (TOption (TOption t)) (bs ++ rest) = Ok (FNone, rest) /\
    fread L E (S (S d)) (TOption (TOption t)) (bs' ++ rest) = Ok (FNone, rest).
Proof.
  intros H0 H1. exists ([x01] ++ [x00]), [x00].
  split; [reflexivity|]. split; [reflexivity|]. split; [discriminate|].
  cbn [app fread].
  change (get_checked 1 (x01 :: x00 :: rest)) with (Ok ([x01], x00 :: rest)).
  change (get_checked 1 (x00 :: rest)) with (Ok ([x00], rest)). cbn [bind].
  change (dec_u [x01]) with 1. change (dec_u [x00]) with 0. rewrite H0, H1. cbn [bind].
  change (get_checked 1 (x00 :: rest)) with (Ok ([x00], rest)). cbn [bind].
  change (dec_u [x00]) with 0. rewrite H0. split; reflexivity.
Qed.

(** A map whose keys are records. *)
Definition rk_env : env := {|
  defs := fun n => if (n =? "Key")%string then Some (DRecord [TInt true W32]) else None;
  clift := fun _ v => Ok v; display := fun _ _ => [] |}.
Definition rk_ty : ty := TMap (TNamed "Key") TBool.
Definition rk_val : val := VMap [(VRec [VInt 7], VBool true)].

(** Two instants half a microsecond apart. *)
Definition tk_ty : ty := TMap TTimestamp (TInt true W8).
Definition tk_val : val := VMap [(VTime 1000, VInt 1); (VTime 1400, VInt 2)].

Lemma unhashable : has_type rk_env rk_ty rk_val /\ exists bs, write rk_env rk_ty rk_val = Ok bs /\
  forall d rest, fread (python rk_env no_hash true) rk_env (S (S (S d))) rk_ty (bs ++ rest) = Err.
Proof.
  split.
  - apply ht_map; [apply Forall_cons; [|apply Forall_nil]..|].
    + eapply ht_rec; [reflexivity|]. apply Forall2_cons; [|apply Forall2_nil].
      apply ht_sint. vm_compute. intuition congruence.
    + apply ht_bool.
    + constructor; [intros []|constructor].
  - eexists. split; [vm_compute; reflexivity|]. intros d rest. vm_compute. reflexivity.
Qed.

Lemma colliding_keys : has_type fx_env tk_ty tk_val /\ exists bs, write fx_env tk_ty tk_val = Ok bs /\
  forall d rest, fread (python fx_env no_hash true) fx_env (S (S d)) tk_ty (bs ++ rest)
                 = Ok (FMap [(FTime 1, FInt 2)], rest).
Proof.
  split.
  - apply ht_map; [apply Forall_cons; [|apply Forall_cons; [|apply Forall_nil]]..|].
    + apply ht_time. vm_compute. intuition congruence.
    + apply ht_time. vm_compute. intuition congruence.
    + apply ht_sint. vm_compute. intuition congruence.
    + apply ht_sint. vm_compute. intuition congruence.
    + constructor; [intros [X|[]]; discriminate X|constructor; [intros []|constructor]].
  - eexists. split; [vm_compute; reflexivity|]. intros d rest. vm_compute. reflexivity.
Qed.

Lemma ruby_u8 E z d rest : 128 <= z < 256 ->
  exists bs, write E (TInt false W8) (VInt z) = Ok bs /\
             fread ruby E (S d) (TInt false W8) (bs ++ rest) = Ok (FInt (z - 256), rest).
Proof.
  intros B. exists (enc 1 z). split; [reflexivity|]. cbn [fread u8_signed ruby].
  rewrite get_checked_enc. cbn [bind]. replace (enc 1 z) with (enc 1 (z - 256)).
  - rewrite dec_s_enc; [reflexivity|lia|]. rewrite half_1. lia.
  - rewrite <- enc_wrap. rewrite modulus_1. f_equal. lia.
Qed.

Lemma colliding_keys' : exists E h t k k' a b bs,
  has_type E t (VMap [(k, a); (k', b)]) /\ write E t (VMap [(k, a); (k', b)]) = Ok bs /\
  exists p, forall d rest, fread (python E h true) E (S (S d)) t (bs ++ rest) = Ok (FMap [p], rest).
Proof.
  destruct colliding_keys as (T & bs & W & R).
  exists fx_env, no_hash, tk_ty, (VTime 1000), (VTime 1400), (VInt 1), (VInt 2), bs. eauto.
Qed.

(** The values above are the same values. *)
Lemma fx_kt_same : same kt_from fx_env fx_ty fx_val fx_kt.
Proof.
  apply s_map; [| |cbn [map fst]; two_keys|repeat constructor].
  - apply Forall2_cons; [|apply Forall2_cons; [|apply Forall2_nil]];
      (eapply s_enum; [reflexivity|reflexivity|constructor]).
  - apply Forall2_cons; [|apply Forall2_cons; [apply s_none|apply Forall2_nil]].
    cbn [snd]. apply s_some; [|discriminate]. eapply s_rec; [reflexivity|].
    repeat apply ss_cons; try apply ss_nil.
    + apply s_time. reflexivity.
    + apply s_dur. reflexivity.
    + apply s_float. reflexivity.
    + apply s_str. exists [0xe9; 0x1d11e]%N. split; [|split; vm_compute; reflexivity].
      repeat constructor; unfold scalar; lia.
    + exact (s_bytes kt_from fx_env [xff; x00]).
Qed.

Definition fx_val_us : val :=
  VMap [(VEnum 0 [], VSome (VRec [VTime (-1500000000); VDur 2000000000; VFloat 0x3DCCCCCD;
                                  VStr [xc3; xa9; xf0; x9d; x84; x9e];
                                  VSeq [VInt 255; VInt 0]]));
        (VEnum 1 [], VNone)].

Lemma fx_number : number_of 0x3DCCCCCD 0x3FB99999A0000000.
Proof.
  split; [vm_compute; intuition congruence|]. split; [vm_compute; reflexivity|]. left.
  split; [intros X; vm_compute in X; discriminate|].
  split; [intros X; vm_compute in X; discriminate|]. vm_compute. reflexivity.
Qed.

Lemma fx_py_same : same py_exact fx_env fx_ty fx_val_us fx_py.
Proof.
  apply s_map; [| |cbn [map fst]; two_keys|repeat constructor].
  - apply Forall2_cons; [|apply Forall2_cons; [|apply Forall2_nil]];
      (eapply s_enum; [reflexivity|reflexivity|constructor]).
  - apply Forall2_cons; [|apply Forall2_cons; [apply s_none|apply Forall2_nil]].
    cbn [snd]. apply s_some; [|discriminate]. eapply s_rec; [reflexivity|].
    repeat apply ss_cons; try apply ss_nil.
    + apply s_time. reflexivity.
    + apply s_dur. reflexivity.
    + apply s_float. exact fx_number.
    + apply s_str. split; [|vm_compute; reflexivity]. repeat constructor; unfold scalar; lia.
    + exact (s_bytes py_exact fx_env [xff; x00]).
Qed.

Lemma fx_rb_same : same rb_exact fx_env fx_ty fx_val fx_rb.
Proof.
  apply s_map; [| |cbn [map fst]; two_keys|repeat constructor].
  - apply Forall2_cons; [|apply Forall2_cons; [|apply Forall2_nil]];
      (eapply s_enum; [reflexivity|reflexivity|constructor]).
  - apply Forall2_cons; [|apply Forall2_cons; [apply s_none|apply Forall2_nil]].
    cbn [snd]. apply s_some; [|discriminate]. eapply s_rec; [reflexivity|].
    repeat apply ss_cons; try apply ss_nil.
    + apply s_time. reflexivity.
    + apply s_dur. reflexivity.
    + apply s_float. exact fx_number.
    + apply s_str. split; [|vm_compute; reflexivity]. repeat constructor; unfold scalar; lia.
    + exact (s_bytes rb_exact fx_env [xff; x00]).
Qed.

Lemma fx_no_flat : no_flat fx_val /\ no_flat fx_val_us.
Proof. split; intros i m H; cbn in H; in_cases; discriminate. Qed.
