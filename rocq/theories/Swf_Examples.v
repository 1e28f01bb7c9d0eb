(** A sample value for the theorems about Swift. *)
From Verif Require Import Base Utf8 Wire_Model Wire_Spec Wire_Examples Fgn_Model Fgn_Spec
  Wire_Proofs Fgn_Proofs Fgn_Proofs5 Fgn_Examples Swf_Model Swf_Spec Swf_Dbl Swf_Basics Swf_Read Swf_Write.
Local Open Scope string_scope.
Local Open Scope list_scope.
Local Open Scope Z_scope.

(** A Swift that takes e with an acute accent for its composed form. *)
Definition composed : bytes := [xc3; xa9].
Definition decomposed : bytes := [x65; xcc; x81].
Definition sw : swift := {|
  repair := fun _ => [];
  canon := fun s => if bytes_eqb s decomposed then composed else s |}.

(** [HashMap<String, Option<Option<Event>>>] *)
Definition sx_ty : ty := TMap TString (TOption (TOption (TNamed "Event"))).
Definition sx_event (t u : Z) : val :=
  VRec [VTime t; VDur u; VFloat 0x3DCCCCCD; VStr decomposed; VSeq [VInt 255; VInt 0]].
Definition sx_val (t u : Z) : val :=
  VMap [(VStr decomposed, VSome (VSome (sx_event t u))); (VStr [x61], VSome VNone); (VStr [], VNone)].
(** 1.5 seconds before 1970 and 2.0000005 seconds; 3 seconds before 1970 and 2 seconds. *)
Definition sx1 : val := sx_val (-1500000000) 2000000500.
Definition sx2 : val := sx_val (-3000000000) 2000000000.
Definition written (v : val) : bytes := match write fx_env sx_ty v with Ok b => b | _ => [] end.
Definition sx_swift : sval :=
  match sread sw fx_env 5 sx_ty (written sx1) with Ok (s, _) => s | _ => SNil end.

Definition sx_types : list ty :=
  [sx_ty; TString; TOption (TOption (TNamed "Event")); TOption (TNamed "Event"); TNamed "Event";
   TTimestamp; TDuration; TFloat false; TVec (TInt false W8); TInt false W8].
Lemma sx_uses u : uses fx_env sx_ty u -> In u sx_types.
Proof. intros U. refine (uses_closed fx_env sx_types _ sx_ty u U (or_introl eq_refl)). vm_compute. reflexivity. Qed.
Lemma str_uses u : uses fx_env TString u -> u = TString.
Proof. intros U. inversion U. reflexivity. Qed.

Lemma sx_keys : plain_keys fx_env sx_ty.
Proof.
  intros u U. apply sx_uses in U. cbn in U. in_cases; try exact I.
  intros u X. apply str_uses in X as ->. exact I.
Qed.

Lemma sx_typed : has_type fx_env sx_ty sx1 /\ has_type fx_env sx_ty sx2.
Proof.
  split; unfold sx1, sx2, sx_val, sx_event;
  repeat first [ reflexivity | (split; [lia|]) |
    apply ht_map | apply ht_some | apply ht_none | eapply ht_enum | eapply ht_rec
    | apply ht_seq | apply ht_sint | apply ht_uint | apply ht_str | apply ht_time | apply ht_dur | apply ht_float
    | apply Forall_cons | apply Forall_nil | apply Forall2_cons | apply Forall2_nil ];
    try (cbn; repeat constructor; cbn; intuition discriminate);
    try (vm_compute; intuition congruence).
Qed.

Lemma sx_apart t u : apart sw (sx_val t u).
Proof.
  intros w I. vm_compute in I. repeat (destruct I as [<-|I]; [try exact Logic.I|]); [|destruct I].
  vm_compute. repeat constructor; cbn; intuition discriminate.
Qed.
Lemma sx_instant : no_lost_instant sx1.
Proof. intros t H. cbn in H. in_cases; try discriminate. injection H as <-. lia. Qed.
Lemma sx_whole : whole sx2.
Proof.
  intros t [H|H]; cbn in H; in_cases; try discriminate H; injection H as <-.
  - exists (-3). split; [lia|reflexivity].
  - exists 2. split; [lia|reflexivity].
Qed.
Lemma sx_no_flat : no_flat sx2.
Proof. intros i m H. cbn in H. in_cases; discriminate. Qed.
Lemma sx_written : write fx_env sx_ty sx1 = Ok (written sx1) /\ (length (written sx1) = 66)%nat /\
  write fx_env sx_ty sx2 = Ok (written sx2).
Proof. vm_compute. auto. Qed.

Lemma sx_read : sread sw fx_env 5 sx_ty (written sx1) = Ok (sx_swift, []).
Proof. vm_compute. reflexivity. Qed.
Lemma sx_back : exists bs, swrite fx_env 5 sx_ty sx_swift = Ok bs /\ (length bs = 66)%nat.
Proof. eexists. split; [vm_compute; reflexivity|reflexivity]. Qed.

Lemma sx_held : held sw sx_swift.
Proof.
  assert (D : exists x y, sx_swift = SDict
     [(SStr decomposed, SSome (SSome (SStruct [SDate x; SInterval y; SFloat 0x3DCCCCCD; SStr decomposed; SData [xff; x00]])));
      (SStr [x61], SSome SNil); (SStr [], SNil)] /\ double x /\ ~ (- one < since1970 x < 0) /\ double y).
  { eexists. eexists. split; [vm_compute; reflexivity|]. split; [|split].
    - exists (-1956614403), 1073. split; [lia|]. split; [lia|]. vm_compute. reflexivity.
    - intros [X _]. vm_compute in X. discriminate X.
    - exists 4503600753270403, 1023. split; [lia|]. split; [lia|]. vm_compute. reflexivity. }
  destruct D as (x & y & -> & Dx & Nx & Dy). intros u I. cbn [ssubs flat_map app fst snd] in I.
  repeat (destruct I as [<-|I]; [try exact Logic.I; try reflexivity; auto|]); [|destruct I].
  cbn [map fst norm]. repeat constructor; vm_compute; intuition discriminate.
Qed.

Lemma sx_equal : canon sw composed = canon sw decomposed /\ composed <> decomposed /\
  utf8_valid composed = true /\ utf8_valid decomposed = true.
Proof. vm_compute. split; [reflexivity|]. split; [discriminate|auto]. Qed.
