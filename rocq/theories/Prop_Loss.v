(** C39: the two losses in exact arithmetic. *)
From Coq Require Import Reals Lra.
From Verif Require Import Base FloatOps FloatR Model_Loss Spec_Loss Proof_Loss.
Open Scope R_scope.

(** For a label in range the loss is defined and nonnegative at every prediction, and the
    reported first derivative is its derivative everywhere, also at and beyond the ends of
    the label range. *)
Theorem C39_first_derivative : forall dbg k mn mx l, label_ok k mn mx l ->
  exists f : R -> R,
    (forall p, loss_get (O:=RF) dbg k mn mx p l = Ok (f p)) /\
    (forall p, 0 <= f p) /\
    (forall p, derivable_pt_lim f p (loss_d1 (O:=RF) k mn mx p l)).
Proof. exact first_derivative. Qed.
Print Assumptions C39_first_derivative.

(** The reported second derivative is the derivative of the first; for the squared loss
    at every prediction other than the two ends of the range. *)
Theorem C39_second_derivative : forall k mn mx l p,
  match k with LossSquared => mn <= mx /\ p <> mn /\ p <> mx | LossLogistic _ _ => True end ->
  derivable_pt_lim (fun q => loss_d1 (O:=RF) k mn mx q l) p (loss_d2 (O:=RF) k mn mx p l).
Proof. exact second_derivative. Qed.
Print Assumptions C39_second_derivative.

(** Both losses are convex in the prediction: the second derivative is nonnegative. *)
Theorem C39_convex : forall k mn mx l p, label_ok k mn mx l ->
  0 <= loss_d2 (O:=RF) k mn mx p l.
Proof. exact convex. Qed.
Print Assumptions C39_convex.

(** Outside the range the squared loss continues along its tangent. *)
Theorem C39_linear_outside : forall mn mx p l, mn <= mx ->
  (p <= mn -> sq_loss (O:=RF) mn mx p l
              = sq_loss (O:=RF) mn mx mn l + sq_d1 (O:=RF) mn mx mn l * (p - mn)) /\
  (mx <= p -> sq_loss (O:=RF) mn mx p l
              = sq_loss (O:=RF) mn mx mx l + sq_d1 (O:=RF) mn mx mx l * (p - mx)).
Proof. exact outside. Qed.
Print Assumptions C39_linear_outside.

(** The squared update, applied with its prediction change per unit of update, moves the
    prediction toward the label and does not pass it. *)
Theorem C39_step : forall p l s u, 0 <= s -> 0 <= u ->
  seg p l (p + u * sq_update (O:=RF) p l s u).
Proof. exact step. Qed.
Print Assumptions C39_step.

Theorem C39_step_moves : forall p l s u, 0 < s -> 0 < u -> p <> l ->
  p + u * sq_update (O:=RF) p l s u <> p.
Proof. exact step_strict. Qed.
Print Assumptions C39_step_moves.

(** The unchecked update is the step of size [s] against the gradient, and the reported
    squared gradient is the square of the first derivative. *)
Theorem C39_gradient_step : forall k mn mx p l s,
  match k with LossSquared => mn <= p <= mx | LossLogistic _ _ => True end ->
  loss_unsafe_update (O:=RF) k p l s = - s * loss_d1 (O:=RF) k mn mx p l /\
  loss_square_grad (O:=RF) k p l = loss_d1 (O:=RF) k mn mx p l * loss_d1 (O:=RF) k mn mx p l.
Proof. exact gradient_step. Qed.
Print Assumptions C39_gradient_step.

(** At the ends of a proper range the first derivative of the squared loss has a corner,
    so no second derivative exists there (the code reports 2). *)
Theorem C39_corner_refuted : forall mn mx l, mn < mx ->
  ~ exists d, derivable_pt_lim (fun q => sq_d1 (O:=RF) mn mx q l) mn d.
Proof. exact corner. Qed.
Print Assumptions C39_corner_refuted.

(** The hypotheses are met by the usual ranges. *)
Example C39_example :
  label_ok LossSquared 0 1 (1/2) /\ label_ok (LossLogistic (-1) 1) 0 1 1 /\
  (0 <= 1 /\ 1/3 <> 0 /\ 1/3 <> 1).
Proof. simpl. repeat split; lra. Qed.
Print Assumptions C39_example.
