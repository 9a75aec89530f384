(** What C101 talks about: the answers of a workspace that has not learned anything. *)
From Coq Require Import List NArith PeanoNat.
From Verif Require Import Base FloatOps Model_Types Model_Coin Model_Stack Model_Factory.
Import ListNotations.

(** score zero for the actions 0, 1, 2, ..., [n - 1] *)
Definition zeros {O : FOps} (n : nat) : list (N * O) := map (fun i => (N.of_nat i, f0)) (seq 0 n).
(** [eps / n] for each action, and [1 - eps] more for action 0; in the arithmetic at hand *)
Definition greedy_start {O : FOps} (eps : O) (n : nat) : list (N * O) :=
  map (fun i => (N.of_nat i, if Nat.eqb i 0 then f_add O (f_div O eps (f_of_nat n)) (f_sub O f1 eps) else f_div O eps (f_of_nat n))) (seq 0 n).
(** the link function configured for the regressor at the bottom *)
Fixpoint link_of {O : FOps} (c : rcfg O) : link :=
  match c with
  | CCoin cfg => cc_link cfg
  | CBinary c | CCbAdf _ c | CGreedy _ c | CSoftmax _ _ c | CSquareCb _ _ _ c | CElem _ _ _ c | CDebug c => link_of c
  | _ => LinkIdentity
  end.
