(** The object pool shared between threads: /repo/reductionml-core/src/object_pool.rs:3-34.
    Any number of clients (threads) call [get_object], [return_object] and [len]; the
    steps of the calls interleave arbitrarily.  The mutex is modelled by who holds it,
    and the vector behind it is read and written in separate steps, so that the mutual
    exclusion matters.  Objects are named by numbers; their contents are left out (they
    are in Model_Features: [sf_clear]).  Memory is sequentially consistent.
    That a thread returns only an object it owns, and owns it no longer afterwards, is
    what Rust's ownership rules give: [return_object] takes its argument by value. *)
From Coq Require Import List Bool PeanoNat.
Import ListNotations.

Definition obj : Type := nat.
Definition client : Type := nat.

(** Where a client is: outside of the pool, waiting for the lock, holding the lock
    before and after reading the vector. *)
Inductive cphase : Type :=
| CIdle
| CGetWant | CGetLocked | CGetRead (v : list obj)
| CRetWant (x : obj) | CRetLocked (x : obj) | CRetRead (x : obj) (v : list obj)
| CLenWant | CLenLocked
| CUnlock.

(** [pl_vec]: the vector, its last element first.  [pl_made]: how many objects were
    created so far. *)
Record plstate : Type := mkPl {
  pl_vec : list obj;
  pl_lock : option client;
  pl_phase : client -> cphase;
  pl_owned : client -> list obj;
  pl_made : nat
}.

(** What is visible of a run: an object is handed out (and was created then or not), is
    returned, is created outside of the pool, dropped, passed to another thread; the
    length is read. *)
Inductive pevent : Type :=
| Handed (c : client) (x : obj)
| Returned (c : client) (x : obj)
| Made (c : client) (x : obj)
| Dropped (c : client) (x : obj)
| Passed (c d : client) (x : obj)
| Length (c : client) (k : nat).

Definition set_at {A} (c : nat) (x : A) (f : nat -> A) : nat -> A := fun d => if d =? c then x else f d.

(** object_pool.rs:9-13 [new] *)
Definition pl_init : plstate := mkPl [] None (fun _ => CIdle) (fun _ => []) 0.

Definition to_phase (c : client) (p : cphase) (s : plstate) : plstate :=
  mkPl (pl_vec s) (pl_lock s) (set_at c p (pl_phase s)) (pl_owned s) (pl_made s).
Definition with_lock (l : option client) (s : plstate) : plstate :=
  mkPl (pl_vec s) l (pl_phase s) (pl_owned s) (pl_made s).
Definition with_vec (v : list obj) (s : plstate) : plstate :=
  mkPl v (pl_lock s) (pl_phase s) (pl_owned s) (pl_made s).
Definition own (c : client) (l : list obj) (s : plstate) : plstate :=
  mkPl (pl_vec s) (pl_lock s) (pl_phase s) (set_at c l (pl_owned s)) (pl_made s).
Definition with_made (m : nat) (s : plstate) : plstate :=
  mkPl (pl_vec s) (pl_lock s) (pl_phase s) (pl_owned s) m.

Inductive pl_step : plstate -> list pevent -> plstate -> Prop :=
(* calls *)
| pl_get : forall s c, pl_phase s c = CIdle -> pl_step s [] (to_phase c CGetWant s)
| pl_ret : forall s c x l1 l2, pl_phase s c = CIdle -> pl_owned s c = l1 ++ x :: l2 ->
    pl_step s [] (to_phase c (CRetWant x) (own c (l1 ++ l2) s))
| pl_len : forall s c, pl_phase s c = CIdle -> pl_step s [] (to_phase c CLenWant s)
(* taking the lock *)
| pl_get_lock : forall s c, pl_phase s c = CGetWant -> pl_lock s = None ->
    pl_step s [] (to_phase c CGetLocked (with_lock (Some c) s))
| pl_ret_lock : forall s c x, pl_phase s c = CRetWant x -> pl_lock s = None ->
    pl_step s [] (to_phase c (CRetLocked x) (with_lock (Some c) s))
| pl_len_lock : forall s c, pl_phase s c = CLenWant -> pl_lock s = None ->
    pl_step s [] (to_phase c CLenLocked (with_lock (Some c) s))
(* lines 26-28 [get_object]: pop, or a new object *)
| pl_get_read : forall s c, pl_phase s c = CGetLocked -> pl_step s [] (to_phase c (CGetRead (pl_vec s)) s)
| pl_get_pop : forall s c x v, pl_phase s c = CGetRead (x :: v) ->
    pl_step s [Handed c x] (to_phase c CUnlock (own c (x :: pl_owned s c) (with_vec v s)))
| pl_get_new : forall s c, pl_phase s c = CGetRead [] ->
    pl_step s [Handed c (pl_made s)]
      (to_phase c CUnlock (own c (pl_made s :: pl_owned s c) (with_made (S (pl_made s)) s)))
(* lines 31-33 [return_object]: push *)
| pl_ret_read : forall s c x, pl_phase s c = CRetLocked x -> pl_step s [] (to_phase c (CRetRead x (pl_vec s)) s)
| pl_ret_push : forall s c x v, pl_phase s c = CRetRead x v ->
    pl_step s [Returned c x] (to_phase c CUnlock (with_vec (x :: v) s))
(* lines 16-18 [len] *)
| pl_len_read : forall s c, pl_phase s c = CLenLocked ->
    pl_step s [Length c (length (pl_vec s))] (to_phase c CUnlock s)
(* the guard is dropped *)
| pl_unlock : forall s c, pl_phase s c = CUnlock -> pl_step s [] (to_phase c CIdle (with_lock None s))
(* outside of the pool *)
| pl_make : forall s c, pl_phase s c = CIdle ->
    pl_step s [Made c (pl_made s)] (own c (pl_made s :: pl_owned s c) (with_made (S (pl_made s)) s))
| pl_drop : forall s c x l1 l2, pl_phase s c = CIdle -> pl_owned s c = l1 ++ x :: l2 ->
    pl_step s [Dropped c x] (own c (l1 ++ l2) s)
| pl_pass : forall s c d x l1 l2, c <> d -> pl_phase s c = CIdle -> pl_owned s c = l1 ++ x :: l2 ->
    pl_step s [Passed c d x] (own d (x :: pl_owned s d) (own c (l1 ++ l2) s)).

(** Runs, with their events in order. *)
Inductive pl_run : list pevent -> plstate -> Prop :=
| plr_start : pl_run [] pl_init
| plr_step : forall tr s e s', pl_run tr s -> pl_step s e s' -> pl_run (tr ++ e) s'.
