(** Builds that show what is parsed and what is missed. *)
From Verif Require Import Dep_Spec Dep_Proofs.
From Coq Require Import Permutation.

Definition on (n : string) (fs : list string) : dependency := Dependency n Normal false true fs true.
Definition uniffi_crate : crate := Crate "uniffi" [] [] [(TLib, ("uniffi", "/uniffi/lib.rs"))] false.
Definition usual : options := Options false false [].

(** A build with nothing special. *)
Definition dx_geometry : crate :=
  Crate "geometry" [("default", [Feature "std"]); ("std", []); ("serde", [])] [on "uniffi" []] [(TLib, ("geometry", "/geometry/lib.rs"))] false.
Definition dx_app : crate :=
  Crate "app" [("default", [Feature "net"]); ("net", []); ("extra", []); ("more", [])] [on "uniffi" []; on "geometry" ["serde"]]
    [(TCdylib, ("app", "/app/lib.rs")); (TBin, ("app", "/app/main.rs"))] false.
Definition dx_build : list crate := [uniffi_crate; dx_geometry; dx_app].
Definition dx_options : options := Options false false ["extra"].
Example dx_found : get_source_crates (enough dx_build "app") dx_build dx_options "app"
  = Some [SourceCrate "app" "/app/lib.rs" ["extra"; "net"]; SourceCrate "geometry" "/geometry/lib.rs" ["serde"; "std"]].
Proof. reflexivity. Qed.
Lemma dx_reached n : reached dx_build "app" n -> n = "app" \/ n = "uniffi" \/ n = "geometry".
Proof.
  intros R. induction R as [| n c d R IH G I]; [auto |].
  destruct IH as [-> | [-> | ->]]; vm_compute in G; injection G as <-; cbn [c_deps In on dep_name] in I;
    repeat match goal with H : _ \/ _ |- _ => destruct H as [<- | H] | H : False |- _ => destruct H end; cbn; auto.
Qed.
Example dx_exact : exact dx_build "app".
Proof. intros n c R G. destruct (dx_reached n R) as [-> | [-> | ->]]; vm_compute in G; injection G as <-; reflexivity. Qed.
Example dx_plain : plain dx_build.
Proof.
  intros c d I J. cbn in I. repeat match goal with H : _ \/ _ |- _ => destruct H as [<- | H] | H : False |- _ => destruct H end;
    cbn in J; repeat match goal with H : _ \/ _ |- _ => destruct H as [<- | H] | H : False |- _ => destruct H end; auto.
Qed.
Lemma get_keys {A} k (v : A) t : get k t = Some v -> In (k, v) t.
Proof. induction t as [| [k' w] t IH]; cbn; [discriminate |]. destruct (String.eqb_spec k k') as [-> | D]; [intros [= ->]; now left | intros H; right; exact (IH H)]. Qed.
Example dx_flat : flat dx_build dx_options.
Proof.
  split; [| split].
  - intros c f v I (vs & G & J). apply get_keys in G. cbn in I.
    repeat match goal with H : _ \/ _ |- _ => destruct H as [<- | H] | H : False |- _ => destruct H end; cbn in G;
      repeat match goal with H : _ \/ _ |- _ => destruct H as [H | H] | H : False |- _ => destruct H end;
      injection G as <- <-; try destruct J as [<- | []]; try destruct J;
      (split; [reflexivity | eexists; split; [reflexivity | discriminate]]).
  - intros c d I J. cbn in I. repeat match goal with H : _ \/ _ |- _ => destruct H as [<- | H] | H : False |- _ => destruct H end;
      cbn in J; repeat match goal with H : _ \/ _ |- _ => destruct H as [<- | H] | H : False |- _ => destruct H end;
      cbn; intuition discriminate.
  - now left.
Qed.
Example dx_active : active dx_build dx_options "app" dx_geometry "std".
Proof.
  apply (active_feature _ _ _ _ "default"); [| exists [Feature "std"]; split; [reflexivity | now left]].
  apply (active_dep_default _ _ _ dx_app (on "geometry" ["serde"])); [| reflexivity | reflexivity].
  apply used_plain; try reflexivity; [now constructor | right; now left].
Qed.

(** * Features that turn on others *)
Definition dx_chain : crate :=
  Crate "geometry" [("default", [Feature "std"]); ("std", [Feature "alloc"]); ("alloc", [])] [on "uniffi" []] [(TLib, ("geometry", "/geometry/lib.rs"))] false.
Lemma plain_two a b : Forall (fun d => dep_of d = Normal /\ dep_here d = true /\ dep_optional d = false) (c_deps a) ->
  Forall (fun d => dep_of d = Normal /\ dep_here d = true /\ dep_optional d = false) (c_deps b) -> plain [a; b].
Proof. intros A B c d [<- | [<- | []]] J; [exact (proj1 (Forall_forall _ _) A d J) | exact (proj1 (Forall_forall _ _) B d J)]. Qed.
Lemma exact_all cs source : (forall n c, In n (names_in cs source) -> get_crate cs n = Some c -> c_name c = n) -> exact cs source.
Proof.
  intros H n c R. apply H. destruct R as [| m b d R G I]; [now left |]. right. apply in_flat_map. exists b.
  split; [exact (get_crate_in _ _ _ G) | now apply in_map].
Qed.
Lemma exact_dec cs source : forallb (fun n => match get_crate cs n with Some c => String.eqb (c_name c) n | None => true end) (names_in cs source) = true ->
  exact cs source.
Proof.
  intros H. apply exact_all. intros n c I G. rewrite forallb_forall in H. specialize (H n I). rewrite G in H. now apply String.eqb_eq.
Qed.
Lemma chain_missed : ~ (forall cs o source fuel l name path fs c f, plain cs -> exact cs source ->
    get_source_crates fuel cs o source = Some l -> In (SourceCrate name path fs) l -> get_crate cs name = Some c ->
    active cs o source c f -> f <> "default" -> In f fs).
Proof.
  intros H.
  assert (A : In "alloc" ["std"]).
  { apply (H [uniffi_crate; dx_chain] usual "geometry" 10 [SourceCrate "geometry" "/geometry/lib.rs" ["std"]]
             "geometry" "/geometry/lib.rs" ["std"] dx_chain "alloc").
    - apply plain_two; repeat constructor.
    - apply exact_dec. reflexivity.
    - reflexivity.
    - now left.
    - reflexivity.
    - apply (active_feature _ _ _ _ "std"); [| exists [Feature "alloc"]; split; [reflexivity | now left]].
      apply (active_feature _ _ _ _ "default"); [| exists [Feature "std"]; split; [reflexivity | now left]].
      now apply active_default.
    - discriminate. }
  destruct A as [A | []]. discriminate A.
Qed.
(** A feature of a dependency. *)
Definition dx_forward : crate :=
  Crate "app" [("default", [DepFeature "geometry" "serde" false])] [on "uniffi" []; on "geometry" []] [(TLib, ("app", "/app/lib.rs"))] false.
Lemma forward_missed : ~ (forall cs o source fuel l name path fs c f, plain cs -> exact cs source ->
    (forall c f g, In c cs -> turns_on c f (Feature g) -> f = "default") ->
    get_source_crates fuel cs o source = Some l -> In (SourceCrate name path fs) l -> get_crate cs name = Some c ->
    active cs o source c f -> f <> "default" -> In f fs).
Proof.
  intros H.
  assert (A : In "serde" ["std"]).
  { apply (H [dx_geometry; dx_forward] usual "app" 10
             [SourceCrate "app" "/app/lib.rs" ["geometry/serde"]; SourceCrate "geometry" "/geometry/lib.rs" ["std"]]
             "geometry" "/geometry/lib.rs" ["std"] dx_geometry "serde").
    - apply plain_two; repeat constructor.
    - apply exact_dec. reflexivity.
    - intros c f g I (vs & G & J). apply get_keys in G. destruct I as [<- | [<- | []]]; cbn in G;
        repeat match goal with H : _ \/ _ |- _ => destruct H as [H | H] | H : False |- _ => destruct H end;
        injection G as <- <-; try destruct J as [J | []]; try destruct J; try reflexivity.
    - reflexivity.
    - right. now left.
    - reflexivity.
    - apply (active_forward _ _ _ dx_forward "default" (on "geometry" []) _ "serde" false).
      + now apply active_default.
      + exists [DepFeature "geometry" "serde" false]. split; [reflexivity | now left].
      + apply used_plain; try reflexivity; [now constructor | right; now left].
      + reflexivity.
    - discriminate. }
  destruct A as [A | []]. discriminate A.
Qed.

(** * Dependencies for tests *)
Definition for_tests (n : string) (fs : list string) : dependency := Dependency n Development false true fs true.
Definition dx_fixture : crate := Crate "fixture" [] [on "uniffi" []] [(TLib, ("fixture", "/fixture/lib.rs"))] false.
Definition dx_tested : crate := Crate "app" [] [on "uniffi" []; for_tests "fixture" []] [(TLib, ("app", "/app/lib.rs"))] false.
Definition dx_tests : list crate := [uniffi_crate; dx_fixture; dx_tested].
Lemma dx_tests_linked c : linked dx_tests usual "app" c -> c = dx_tested \/ c = uniffi_crate.
Proof.
  revert c. apply (linked_ind3 dx_tests usual "app"
    (fun c => c = dx_tested \/ c = uniffi_crate) (fun c d => dep_name d = "uniffi") (fun _ _ => True)); auto.
  - intros c G. vm_compute in G. injection G as <-. now left.
  - intros c d e _ D G. rewrite D in G. vm_compute in G. injection G as <-. now right.
  - intros c d _ [-> | ->] I K _ _; cbn in I; [| destruct I]. destruct I as [<- | [<- | []]]; [reflexivity | discriminate K].
  - intros c d f v _ [-> | ->] I K _ _ _ _ _; cbn in I; [| destruct I]. destruct I as [<- | [<- | []]]; [reflexivity | discriminate K].
Qed.
Lemma tests_parsed : ~ (forall cs o source fuel l name path fs c, exact cs source ->
    get_source_crates fuel cs o source = Some l -> In (SourceCrate name path fs) l -> get_crate cs name = Some c ->
    linked cs o source c).
Proof.
  intros H. assert (L : linked dx_tests usual "app" dx_fixture).
  { apply (H dx_tests usual "app" 10
             [SourceCrate "app" "/app/lib.rs" []; SourceCrate "fixture" "/fixture/lib.rs" []] "fixture" "/fixture/lib.rs" []).
    - apply exact_dec. reflexivity.
    - reflexivity.
    - right. now left.
    - reflexivity. }
  destruct (dx_tests_linked _ L) as [D | D]; discriminate D.
Qed.
Definition dx_geometry_tests : crate :=
  Crate "geometry" [("testing", [])] [on "uniffi" []] [(TLib, ("geometry", "/geometry/lib.rs"))] false.
Definition dx_tested_too : crate :=
  Crate "app" [] [on "uniffi" []; on "geometry" []; for_tests "geometry" ["testing"]] [(TLib, ("app", "/app/lib.rs"))] false.
Definition dx_tests_too : list crate := [uniffi_crate; dx_geometry_tests; dx_tested_too].
Lemma dx_tests_active :
  (forall c, linked dx_tests_too usual "app" c -> In c dx_tests_too)
  /\ (forall c d, used dx_tests_too usual "app" c d -> d = on "uniffi" [] \/ d = on "geometry" [])
  /\ (forall c f, active dx_tests_too usual "app" c f -> f = "default" /\ In c dx_tests_too).
Proof.
  assert (N : forall c f v, In c dx_tests_too -> f = "default" -> turns_on c f v -> False).
  { intros c f v I -> (vs & G & _). cbn in I. destruct I as [<- | [<- | [<- | []]]]; discriminate G. }
  assert (U : forall c d, In c dx_tests_too -> In d (c_deps c) -> dep_of d = Normal -> d = on "uniffi" [] \/ d = on "geometry" []).
  { intros c d I J K. cbn in I. destruct I as [<- | [<- | [<- | []]]]; cbn in J;
      repeat match goal with H : _ \/ _ |- _ => destruct H as [<- | H] | H : False |- _ => destruct H end; auto. discriminate K. }
  apply build_ind; intros; repeat match goal with H : _ /\ _ |- _ => destruct H end; try exact (get_crate_in _ _ _ ltac:(eassumption)); eauto.
  - destruct H0 as [H0 | H0]; [discriminate H0 | destruct H0].
  - split; [reflexivity |]. exact (get_crate_in _ _ _ H).
  - destruct H0 as [-> | ->]; destruct H2.
  - split; [reflexivity |]. exact (get_crate_in _ _ _ H1).
  - destruct (N c f _ H2 H0 H1).
  - destruct (N c f _ H5 H0 H1).
Qed.
Lemma tests_features : ~ (forall cs o source fuel l name path fs c f, exact cs source ->
    get_source_crates fuel cs o source = Some l -> In (SourceCrate name path fs) l -> get_crate cs name = Some c ->
    linked cs o source c -> In f fs -> In f (map fst (c_features c)) -> active cs o source c f).
Proof.
  intros H. assert (A : active dx_tests_too usual "app" dx_geometry_tests "testing").
  { apply (H dx_tests_too usual "app" 10
             [SourceCrate "app" "/app/lib.rs" []; SourceCrate "geometry" "/geometry/lib.rs" ["testing"]] "geometry" "/geometry/lib.rs" ["testing"]).
    - apply exact_dec. reflexivity.
    - reflexivity.
    - right. now left.
    - reflexivity.
    - apply (linked_dep _ _ _ dx_tested_too (on "geometry" [])); [| reflexivity].
      apply used_plain; try reflexivity; [now constructor | right; now left].
    - now left.
    - now left. }
  destruct (proj2 (proj2 dx_tests_active) _ _ A) as [D _]. discriminate D.
Qed.

(** * Names *)
Definition dx_hyphen : list crate :=
  [uniffi_crate; Crate "my-app" [("default", [Feature "net"]); ("net", []); ("extra", [])] [on "uniffi" []] [(TLib, ("my_app", "/app/lib.rs"))] false].
Lemma spelling : ~ (forall cs o source source' fuel l l', underscore source = underscore source' ->
    get_source_crates fuel cs o source = Some l -> get_source_crates fuel cs o source' = Some l' -> l = l').
Proof.
  intros H.
  discriminate (H dx_hyphen dx_options "my-app" "my_app" 10
    [SourceCrate "my-app" "/app/lib.rs" ["extra"; "net"]] [SourceCrate "my-app" "/app/lib.rs" []] eq_refl eq_refl eq_refl).
Qed.
Lemma library_named cs s c n path : get_crate cs (s_name s) = Some c -> library_of c n path -> n = underscore (c_name c) -> parsed_under s = n.
Proof.
  intros G _ ->. unfold get_crate in G. apply find_some in G as [_ E]. apply String.eqb_eq in E. now rewrite E.
Qed.
Lemma dx_hyphen_named : exists c, get_crate dx_hyphen "my-app" = Some c /\ library_of c "my_app" "/app/lib.rs" /\ "my_app" = underscore (c_name c).
Proof.
  eexists. split; [reflexivity |]. split; [| reflexivity]. exists [], TLib, []. split; [reflexivity |]. split; [now left | intros k t []].
Qed.
Definition dx_renamed : list crate :=
  [uniffi_crate; Crate "geometry-core" [] [on "uniffi" []] [(TLib, ("geometry", "/geometry/lib.rs"))] false].
Lemma library_names : ~ (forall cs o source fuel l s c k n path, exact cs source ->
    get_source_crates fuel cs o source = Some l -> In s l -> get_crate cs (s_name s) = Some c -> c_targets c = [(k, (n, path))] ->
    parsed_under s = underscore n).
Proof.
  intros H.
  discriminate (H dx_renamed usual "geometry-core" 10 [SourceCrate "geometry-core" "/geometry/lib.rs" []]
    (SourceCrate "geometry-core" "/geometry/lib.rs" []) _ TLib "geometry" "/geometry/lib.rs"
    (exact_dec dx_renamed "geometry-core" eq_refl) eq_refl (or_introl eq_refl) eq_refl eq_refl).
Qed.
Lemma unknown_crate : ~ (forall cs o source fuel l, get_source_crates fuel cs o source = Some l -> get_crate cs source = None -> l <> []).
Proof. intros H. exact (H dx_build usual "ap" 5 [] eq_refl eq_refl eq_refl). Qed.
Definition dx_versions : list crate :=
  [uniffi_crate; Crate "geometry" [] [on "uniffi" []] [(TLib, ("geometry", "/geometry-1/lib.rs"))] false;
   Crate "geometry" [] [on "uniffi" []] [(TLib, ("geometry", "/geometry-2/lib.rs"))] false].
Lemma versions : ~ (forall cs cs' o source fuel l, Permutation cs cs' ->
    get_source_crates fuel cs o source = Some l -> get_source_crates fuel cs' o source = Some l).
Proof.
  intros H.
  discriminate (H dx_versions (rev dx_versions) usual "geometry" 10 [SourceCrate "geometry" "/geometry-2/lib.rs" []]
    (Permutation_rev _) eq_refl).
Qed.
