(** C04: property theorems about the shared object pool. *)
From Coq Require Import List.
From Verif Require Import Model_Pool Spec_Pool Proof_Pool.
Import ListNotations.

(** C04.  In every run, of any number of clients and in any interleaving: an object
    handed out twice was returned in between. *)
Theorem C04_never_handed_out_twice : forall tr s, pl_run tr s -> never_twice tr.
Proof. exact pool_never_twice. Qed.
Print Assumptions C04_never_handed_out_twice.

(** At every point of a run the pool holds exactly the objects returned and not handed
    out since, each once; and every get, return and len has the effect and result it has
    on a sequential stack in the order of the events. *)
Theorem C04_pool_contents : forall tr s, pl_run tr s ->
  NoDup (pl_vec s) /\ (forall x, In x (pl_vec s) <-> available tr x) /\ replay tr [] = Some (pl_vec s).
Proof. exact pool_contents. Qed.
Print Assumptions C04_pool_contents.

(** An object has one owner and is not in the pool at the same time. *)
Theorem C04_exclusive : forall tr s c d x, pl_run tr s -> In x (pl_owned s c) ->
  ~ In x (pl_vec s) /\ (In x (pl_owned s d) -> c = d) /\ NoDup (pl_owned s c).
Proof. exact pool_exclusive. Qed.
Print Assumptions C04_exclusive.

(** No call blocks for ever: a client inside a call can move on, or the holder of the
    lock can. *)
Theorem C04_progress : forall tr s c, pl_run tr s -> pl_phase s c <> CIdle ->
  exists d e s', pl_step s e s' /\ pl_phase s' d <> pl_phase s d /\ (d = c \/ pl_lock s = Some d).
Proof. exact pool_progress. Qed.
Print Assumptions C04_progress.

Example C04_example : exists s, pl_run [Handed 0 0; Handed 1 1; Returned 0 0; Handed 1 0; Length 0 0] s /\
  pl_owned s 0 = [] /\ pl_owned s 1 = [0; 1] /\ pl_vec s = [].
Proof. exact ex_pool_run. Qed.
