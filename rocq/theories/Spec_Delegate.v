(** Training on a list of examples. *)
From Coq Require Import List NArith Bool.
From Verif Require Import Base FloatOps Model_Types Model_Stack.
Import ListNotations.

Fixpoint learn_all {O : FOps} (dbg : bool) {n : nat} (r : red O n) (h : list (features O * label O)) : out (red O n) :=
  match h with
  | [] => Ok r
  | (f, lb) :: h' => let* x := ws_learn dbg r f lb in learn_all dbg (fst x) h'
  end.

(** the same label with probability 1 *)
Definition sure {O : FOps} (lb : label O) : label O :=
  match lb with LbCb action cost _ => LbCb action cost f1 | _ => lb end.

(** an exploration layer that leaves the label alone *)
Definition plain_explorer {O : FOps} (k : kind O) : Prop :=
  match k with KGreedy _ | KSoftmax _ _ _ => True | _ => False end.
