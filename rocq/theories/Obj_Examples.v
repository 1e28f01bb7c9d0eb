(** * A history that meets the hypotheses of the object theorems *)

From Verif Require Import Base Obj_Model Obj_Spec.

(** Rust object 7 travels out as a trait object, is wrapped, comes back and is
    used; foreign object 9 travels in, is used through a proxy, goes back home;
    an address is reused; everything is released. *)
Definition ex_ops : list op :=
  [ RNew 7 16; RClone 0; RLowerTrait 0 32; FLift 0; FLowerWrap 0; RLift 0 0; RUse 0;
    FNew 9; FLowerObj 0; RLift 0 48; RUse 0; RClone 0; RLowerTrait 0 0; FLift 0; RDrop 0;
    RDrop 0; FFree 0; RDrop 0; RNew 8 16; RLowerObj 0; FLift 0; FLowerWrap 0; FFree 0 ]%Z.

Definition ex_st : st := match run init ex_ops with Some s => s | None => init end.

Example ex_runs : run init ex_ops = Some ex_st.
Proof. vm_compute. reflexivity. Qed.

Example ex_reachable : reachable ex_st.
Proof. exists ex_ops. exact ex_runs. Qed.

Example ex_log : rev (log ex_st) =
  [ ENew 7; ESent (Rust 7) 32; EGot (Rust 7) (Rust 7) 32; ESent (Rust 7) 32; EGot (Rust 7) (Rust 7) 32; EUse (Rust 7) (Rust 7);
    ESent (Foreign 9) 1; EGot (Foreign 9) (Foreign 9) 1; EUse (Foreign 9) (Foreign 9);
    ESent (Foreign 9) 3; EGot (Foreign 9) (Foreign 9) 3; EDrop 7;
    ENew 8; ESent (Rust 8) 16; EGot (Rust 8) (Rust 8) 16; ESent (Rust 8) 16 ]%Z.
Proof. vm_compute. reflexivity. Qed.

(** The last object is still alive: its handle is on its way to Rust. *)
Example ex_alive : alive 8 ex_st = 1 /\ referenced ex_st = [Rust 8] /\ news 7 ex_st = 1 /\ drops 7 ex_st = 1.
Proof. vm_compute. auto. Qed.

(** Lifting and dropping it leaves nothing. *)
Definition ex_end : st := match run ex_st [RLift 0 0; RDrop 0]%Z with Some s => s | None => init end.
Example ex_end_reachable : reachable ex_end.
Proof. exists (ex_ops ++ [RLift 0 0; RDrop 0]%Z). vm_compute. reflexivity. Qed.
Example ex_nothing : referenced ex_end = [] /\ hp ex_end = [] /\ fm ex_end = [] /\ drops 8 ex_end = 1.
Proof. vm_compute. auto. Qed.

(** A proxy is alive in the middle of the run: the foreign map holds its object. *)
Definition ex_mid : st := match run init (firstn 10 ex_ops) with Some s => s | None => init end.
Example ex_mid_reachable : reachable ex_mid.
Proof. exists (firstn 10 ex_ops). vm_compute. reflexivity. Qed.
Example ex_mid_map : map snd (fm ex_mid) = [9%Z] /\ In (Foreign 9) (referenced ex_mid).
Proof. vm_compute. auto. Qed.
