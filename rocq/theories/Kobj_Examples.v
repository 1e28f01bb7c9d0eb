(** * A call and a destruction that overlap *)

From Verif Require Import Base Kobj_Model Kobj_Spec.

(** Thread 0 is inside a call when thread 1 destroys the object; thread 2 read the
    counter before the destruction, loses its compare-and-set, retries and gets in;
    the last of the two callers runs the destructor; thread 1's late call is rejected. *)
Definition overlap : list op :=
  [Call 0 Method; Go 0; Go 0; Go 0; Call 2 Method; Go 2; Call 1 Destroy; Go 1; Go 1;
   Go 2; Go 2; Go 2; Go 2; Go 2; Go 0; Go 0; Go 0; Go 2; Go 2; Go 2; Call 1 Method; Go 1].

Example overlap_runs :
  no_pass overlap /\
  exists s, run (init 3) overlap = Some s /\ all_idle s /\ destroyed s = true /\ gone s = false /\ 1 < length (ths s) /\
    rev (log s) = [ECall 0 Method; EClone 0; ECall 2 Method; ECall 1 Destroy; EReturn 1; EClone 2; EUse 2;
                   EUse 0; ERelease 0; EReturn 0; ERelease 2; EFree; EDrop; EReturn 2; ECall 1 Method; EReject 1].
Proof.
  split; [repeat constructor|]. eexists. split; [vm_compute; reflexivity|]. split.
  - intros p H. cbn in H. destruct H as [<-|[<-|[<-|[]]]]; reflexivity.
  - cbn. repeat split. lia.
Qed.

(** An object that is never destroyed explicitly is released by the garbage collector. *)
Example collected :
  no_pass [Call 0 Method; Go 0; Go 0; Go 0; Go 0; Go 0; Go 0; Gc] /\
  exists s, run (init 1) [Call 0 Method; Go 0; Go 0; Go 0; Go 0; Go 0; Go 0; Gc] = Some s /\ all_idle s /\ gone s = true /\
    rev (log s) = [ECall 0 Method; EClone 0; EUse 0; ERelease 0; EReturn 0; EFree; EDrop].
Proof.
  split; [repeat constructor|]. eexists. split; [vm_compute; reflexivity|]. split.
  - intros p H. cbn in H. destruct H as [<-|[]]; reflexivity.
  - cbn. repeat split.
Qed.
