(** The byte streams are prefix codes. *)
From Verif Require Import Base Utf8 Utf8_Proofs Meta_Types Meta_Spec Names_Model Csum_Model Csum_Spec.
Open Scope Z_scope.

Definition code {A} (P : A -> Prop) (f : A -> bytes) : Prop :=
  forall x y r s, P x -> P y -> f x ++ r = f y ++ s -> x = y /\ r = s.

Lemma app_inv_len {A} (a b x y : list A) :
  length a = length b -> a ++ x = b ++ y -> a = b /\ x = y.
Proof.
  revert b. induction a as [|h a IH]; intros [|g b] L E; try discriminate; auto.
  injection E as -> E. injection L as L. destruct (IH _ L E) as [-> ->]. auto.
Qed.

Lemma u64_code : code (fun n => 0 <= n < 2 ^ 64) cs_u64.
Proof.
  intros x y r s X Y E. unfold cs_u64 in E. apply app_inv_len in E as [E R];
    [|rewrite !le_bytes_length; reflexivity].
  split; [|exact R]. apply (f_equal le_val) in E. rewrite !le_val_bytes in E.
  change (pow256 8) with (2 ^ 64)%N in E. rewrite !N.mod_small in E by lia. lia.
Qed.

Lemma i64_code : code (fun n => - 2 ^ 63 <= n < 2 ^ 63) cs_i64.
Proof.
  intros x y r s X Y E. change (cs_u64 (x mod 2 ^ 64) ++ r = cs_u64 (y mod 2 ^ 64) ++ s) in E.
  apply u64_code in E; [|apply Z.mod_pos_bound; lia|apply Z.mod_pos_bound; lia].
  destruct E as [E ->]. split; [|reflexivity].
  assert (exists k, x - y = k * 2 ^ 64) as (k & K).
  { exists (x / 2 ^ 64 - y / 2 ^ 64).
    pose proof (Z.div_mod x (2 ^ 64) ltac:(lia)). pose proof (Z.div_mod y (2 ^ 64) ltac:(lia)). lia. }
  assert (k = 0) by lia. lia.
Qed.

Lemma bool_code : code (fun _ => True) cs_bool.
Proof. intros [|] [|] r s _ _ E; inversion E; auto. Qed.

Lemma not_ff n : (n < 255)%N -> n2b n <> xff.
Proof.
  intros L E. apply (f_equal b2n) in E. rewrite b2n_small in E by lia. change (b2n xff) with 255%N in E.
  lia.
Qed.
Lemma enc1_no_ff c : scalar c -> ~ In xff (utf8_enc1 c).
Proof.
  intros S I. unfold utf8_enc1 in I. unfold scalar in S.
  assert (forall d, 0x80 + d mod 0x40 < 255)%N as M.
  { intros d. pose proof (N.mod_lt d 0x40 ltac:(lia)). lia. }
  destruct (N.ltb_spec c 0x80); [|destruct (N.ltb_spec c 0x800); [|destruct (N.ltb_spec c 0x10000)]];
    cbn [In] in I;
    repeat (destruct I as [I|I]; [revert I; apply not_ff; auto; try lia|]); auto.
Qed.
Lemma utf8_no_ff s : utf8 s -> ~ In xff s.
Proof.
  intros U I. apply utf8_valid_iff in U as (cs & F & ->). unfold utf8_enc in I.
  apply in_flat_map in I as (c & C & I). rewrite Forall_forall in F. exact (enc1_no_ff c (F c C) I).
Qed.

Lemma str_code : code utf8 cs_str.
Proof.
  intros x y r s X Y E. apply utf8_no_ff in X, Y. unfold cs_str in E. rewrite <- !app_assoc in E.
  cbn [app] in E. revert y Y E. induction x as [|a x IH]; intros [|b y] Y E; cbn [app] in E.
  - injection E as ->. auto.
  - injection E as <- _. exfalso. apply Y. left. reflexivity.
  - injection E as -> _. exfalso. apply X. left. reflexivity.
  - injection E as -> E. destruct (IH (fun i => X (or_intror i)) y (fun i => Y (or_intror i)) E) as [-> ->].
    auto.
Qed.

Lemma opt_code {A} (P : A -> Prop) f : code P f -> code (opt_all P) (cs_opt f).
Proof.
  intros C [x|] [y|] r s X Y E; cbn [cs_opt] in E; rewrite <- ?app_assoc in E.
  - apply u64_code in E as [_ E]; [|lia|lia]. apply C in E as [-> ->]; auto.
  - apply u64_code in E as [E _]; [discriminate|lia|lia].
  - apply u64_code in E as [E _]; [discriminate|lia|lia].
  - apply u64_code in E as [_ E]; [auto|lia|lia].
Qed.

Lemma flat_code {A} (P : A -> Prop) f : code P f -> forall x y r s,
  length x = length y -> Forall P x -> Forall P y -> flat_map f x ++ r = flat_map f y ++ s ->
  x = y /\ r = s.
Proof.
  intros C. induction x as [|a x IH]; intros [|b y] r s L X Y E; try discriminate L; auto.
  cbn [flat_map] in E. rewrite <- !app_assoc in E. inversion X; inversion Y; subst.
  apply C in E as [-> E]; auto. injection L as L. destruct (IH _ _ _ L H2 H6 E) as [-> ->]. auto.
Qed.
Lemma list_code {A} (P : A -> Prop) f :
  code P f -> code (fun l => Forall P l /\ Z.of_nat (length l) < 2 ^ 64) (cs_list f).
Proof.
  intros C x y r s [X LX] [Y LY] E. unfold cs_list in E. rewrite <- !app_assoc in E.
  apply u64_code in E as [L E]; [|lia|lia]. eapply flat_code; eauto. lia.
Qed.

Lemma kind_code : code (fun _ => True) cs_kind.
Proof.
  intros x y r s _ _ E. unfold cs_kind in E. apply u64_code in E as [E ->]; [|destruct x; lia|destruct y; lia].
  destruct x, y; try discriminate E; auto.
Qed.
Lemma imp_code : code (fun _ => True) cs_imp.
Proof.
  intros [|k] [|l] r s _ _ E; cbn [cs_imp] in E; rewrite <- ?app_assoc in E;
    apply u64_code in E as [D E]; try lia; auto.
  apply kind_code in E as [-> ->]; auto.
Qed.
Lemma radix_code : code (fun _ => True) cs_radix.
Proof.
  intros x y r s _ _ E. unfold cs_radix in E. apply u64_code in E as [E ->]; [|destruct x; lia|destruct y; lia].
  destruct x, y; try discriminate E; auto.
Qed.
Lemma pass_code : code (fun _ => True) cs_pass.
Proof.
  intros x y r s _ _ E. unfold cs_pass in E. apply u64_code in E as [E ->]; [|destruct x; lia|destruct y; lia].
  destruct x, y; try discriminate E; auto.
Qed.

(** The part after the discriminant. *)
Definition ty_body (t : ty) : bytes :=
  match t with
  | TObject mp n i => cs_str mp ++ cs_str n ++ cs_imp i
  | TRecord mp n | TEnum mp n | TCallback mp n => cs_str mp ++ cs_str n
  | TBox t | TOption t | TSeq t | TSet t => cs_ty t
  | TMap k v => cs_ty k ++ cs_ty v
  | TCustom mp n t => cs_str mp ++ cs_str n ++ cs_ty t
  | _ => []
  end.
Lemma cs_ty_eq t : cs_ty t = cs_u64 (ty_index t) ++ ty_body t.
Proof. destruct t; reflexivity. Qed.
Lemma ty_index_range t : 0 <= ty_index t < 2 ^ 64.
Proof. destruct t; cbn [ty_index]; lia. Qed.

Ltac one E := first
  [ apply str_code in E as [? E]; [|assumption|assumption]
  | apply imp_code in E as [? E]; [|exact I|exact I] ].

Lemma ty_code : code ty_strings cs_ty.
Proof.
  intros x. induction x; intros y r s X Y E; rewrite (cs_ty_eq y) in E; rewrite cs_ty_eq in E;
    rewrite <- !app_assoc in E; apply u64_code in E as [D E]; try apply ty_index_range;
    destruct y; try discriminate D; clear D; cbn [ty_body ty_strings] in *; rewrite <- ?app_assoc in E;
    auto; try (destruct X as [? X], Y as [? Y]).
  all: try (one E; one E; subst; auto; fail).
  all: try (one E; one E; one E; subst; auto; fail).
  all: try (apply IHx in E as [-> ->]; auto; fail).
  - apply IHx1 in E as [-> E]; auto. apply IHx2 in E as [-> ->]; auto.
  - destruct X as [? X], Y as [? Y]. one E. one E. apply IHx in E as [-> ->]; auto. subst. auto.
Qed.

Definition lit_body (l : literal) : bytes :=
  match l with
  | LBool b => cs_bool b
  | LString s => cs_str s
  | LUInt z r t => cs_u64 z ++ cs_radix r ++ cs_ty t
  | LInt z r t => cs_i64 z ++ cs_radix r ++ cs_ty t
  | LFloat s t | LEnum s t => cs_str s ++ cs_ty t
  | LSome d => cs_default d
  | _ => []
  end.
Lemma cs_lit_eq l : cs_lit l = cs_u64 (lit_index l) ++ lit_body l.
Proof. destruct l; reflexivity. Qed.
Lemma lit_index_range l : 0 <= lit_index l < 2 ^ 64.
Proof. destruct l; cbn [lit_index]; lia. Qed.

Scheme literal_mind := Induction for literal Sort Prop
with default_mind := Induction for default Sort Prop.
Combined Scheme literal_default_ind from literal_mind, default_mind.

Lemma lit_default_code :
  (forall x y r s, lit_fits x -> lit_fits y -> cs_lit x ++ r = cs_lit y ++ s -> x = y /\ r = s) /\
  (forall x y r s, default_fits x -> default_fits y -> cs_default x ++ r = cs_default y ++ s ->
     x = y /\ r = s).
Proof.
  apply literal_default_ind.
  12: { intros [|l] r s _ _ E; cbn [cs_default] in E; rewrite <- ?app_assoc in E;
        apply u64_code in E as [D E]; try lia; auto. }
  12: { intros l IH [|m] r s X Y E; cbn [cs_default default_fits] in *; rewrite <- ?app_assoc in E;
        apply u64_code in E as [D E]; try lia. apply IH in E as [-> ->]; auto. }
  all: intros; first [rename H2 into E | rename H1 into E]; rewrite !cs_lit_eq, <- !app_assoc in E;
    apply u64_code in E as [D E]; try apply lit_index_range;
    destruct y; try discriminate D; clear D; cbn [lit_body lit_fits] in *; rewrite <- ?app_assoc in E;
    auto.
  - apply bool_code in E as [-> ->]; auto.
  - one E. subst. auto.
  - destruct H, H0. apply u64_code in E as [-> E]; auto. apply radix_code in E as [-> E]; auto.
    apply ty_code in E as [-> ->]; auto.
  - destruct H, H0. apply i64_code in E as [-> E]; auto. apply radix_code in E as [-> E]; auto.
    apply ty_code in E as [-> ->]; auto.
  - destruct H, H0. one E. apply ty_code in E as [-> ->]; auto. subst. auto.
  - destruct H, H0. one E. apply ty_code in E as [-> ->]; auto. subst. auto.
  - apply H in E as [-> ->]; auto.
Qed.
Lemma default_code : code default_fits cs_default.
Proof. exact (proj2 lit_default_code). Qed.

Lemma arg_code : code arg_fits cs_arg.
Proof.
  intros [[n t p d] o] [[n' t' p' d'] o'] r s (A & B & C) (A' & B' & C') E.
  unfold cs_arg in E. cbn [ua_param ua_optional p_name p_ty p_pass p_default] in *.
  rewrite <- !app_assoc in E. one E. apply ty_code in E as [-> E]; auto.
  apply pass_code in E as [-> E]; auto. apply bool_code in E as [-> E]; auto.
  apply (opt_code _ _ default_code) in E as [-> ->]; auto. subst. auto.
Qed.

Theorem streams_distinct k f g r s :
  ufn_fits f -> ufn_fits g -> stream k f ++ r = stream k g ++ s -> same_signature k f g.
Proof.
  intros (A & B & C & D & L & F & G) (A' & B' & C' & D' & L' & F' & G') E.
  unfold same_signature. destruct k; cbn [stream] in E; rewrite <- !app_assoc in E.
  - one E. one E. apply bool_code in E as [? E]; auto.
    apply (list_code _ _ arg_code) in E as [? E]; auto.
    apply (opt_code _ _ ty_code) in E as [? E]; auto.
    apply (opt_code _ _ ty_code) in E as [? E]; auto. auto 10.
  - one E. apply bool_code in E as [? E]; auto.
    apply (list_code _ _ arg_code) in E as [? E]; auto.
    apply (opt_code _ _ ty_code) in E as [? E]; auto.
    apply (opt_code _ _ ty_code) in E as [? E]; auto.
    apply bool_code in E as [? E]; auto 10.
  - one E. one E. one E. apply bool_code in E as [? E]; auto.
    apply (list_code _ _ arg_code) in E as [? E]; auto.
    apply (opt_code _ _ ty_code) in E as [? E]; auto. auto 10.
Qed.

Theorem udl_agree hash k f on_name on_ty :
  u_stored f = None ->
  ci_checksum hash k (rename_ufn on_name on_ty (load_udl hash k f)) = udl_scaffolding hash k f.
Proof. intros N. unfold udl_scaffolding, load_udl, ci_checksum. rewrite N. reflexivity. Qed.

Theorem udl_docs hash k f doc : ci_checksum hash k (set_udoc doc f) = ci_checksum hash k f.
Proof. reflexivity. Qed.
