(** What a loss function and its companions ought to be, in exact arithmetic.  [seg]
    does not refer to the model; [label_ok] only to the kind of loss. *)
From Coq Require Import Reals.
From Verif Require Import Base FloatOps FloatR Model_Loss.
Open Scope R_scope.

(** The label lies in the range of the loss.  The squared loss takes the range from its
    caller, the logistic loss from its own (non-degenerate) configuration. *)
Definition label_ok (k : loss R) (mn mx l : R) : Prop :=
  match k with
  | LossSquared => mn <= l <= mx
  | LossLogistic a b => a < b /\ a <= l <= b
  end.

(** [q] lies on the segment from [p] to [l], [l] not passed. *)
Definition seg (p l q : R) : Prop := p <= q <= l \/ l <= q <= p.
