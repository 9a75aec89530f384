(** What several threads are compared with: one thread, without a pool. *)
From Coq Require Import List NArith Bool.
From Verif Require Import Base FloatOps Model_Hash Model_Features Model_Types Model_Stack Model_Text Model_Metrics Model_Train.
Import ListNotations.
Open Scope nat_scope.

(** The loop of one thread (Model_Train), from state [st]. *)
Definition one_thread {O : FOps} (dbg : bool) (md : tmode) (ps : parser O) (need : str -> nat) (n : nat)
    (chunks : list str) (st : tstate O n) : out (tstate O n) :=
  let* x := train_loop dbg md ps need chunks (st, []) in Ok (fst x).

(** No infinite sequence of moves starts at [a]. *)
Definition no_endless {A} (move : A -> A -> Prop) (a : A) : Prop :=
  forall run : nat -> A, run 0 = a -> ~ forall k, move (run k) (run (S k)).
