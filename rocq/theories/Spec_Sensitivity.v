(** What the sensitivity of an example is, in exact arithmetic. *)
From Coq Require Import List NArith Reals.
From Verif Require Import FloatOps FloatR Model_Coin.
Import ListNotations.
Open Scope R_scope.

(** one feature: [x] its value, [g] the sum of its absolute gradients so far *)
Definition contribution (alpha beta l2 x g : R) : R :=
  (if Rlt_dec x 0 then -1 else 1) / ((beta + sqrt g) / alpha + l2).
Fixpoint contributions (alpha beta l2 : R) (xs gs : list R) : R :=
  match xs, gs with
  | x :: xs, g :: gs => contribution alpha beta l2 x g + contributions alpha beta l2 xs gs
  | _, _ => 0
  end.
(** the third number kept for a feature *)
Definition gradients (st : list R) : R := nth 2 st 0.
