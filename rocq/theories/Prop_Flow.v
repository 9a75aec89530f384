(** C64: the update of a prediction is the gradient flow of its loss. *)
From Coq Require Import Reals Lra.
From Verif Require Import Base FloatOps FloatR Model_Loss Spec_Flow Proof_Flow.
Open Scope R_scope.

(** C64.  [wexpmx] approximates Lambert's function: W(exp x) - x, with an error of at most
    9/100000, for every x. *)
Theorem C64_wexpmx_accuracy : forall x v : R, lambertW (exp x) v ->
  Rabs (wexpmx (O:=RF) RF (fun y => y) (fun y => y) x - (v - x)) <= 9/100000.
Proof. exact wx_error. Qed.
Print Assumptions C64_wexpmx_accuracy.

Theorem C64_lambert_exists : forall x : R, exists v, lambertW (exp x) v.
Proof. exact lambert_exists. Qed.
Print Assumptions C64_lambert_exists.

(** A case with a known value: W(exp 1) = 1. *)
Example C64_wexpmx_accuracy_case : lambertW (exp 1) 1.
Proof. split; lra. Qed.

(** C64.  For a label at either end of the range, moving the prediction by the checked update
    of the logistic loss leads to where the gradient flow of that loss leads in the time
    [scale * ppu], up to 9/100000. *)
Theorem C64_logistic_update_is_flow :
  forall (mn mx l : R) dbg (a b : R) (f : R -> R) (p scale ppu y1 : R), mn < mx -> l = mn \/ l = mx ->
  (forall q, loss_get (O:=RF) dbg (LossLogistic mn mx) a b q l = Ok (f q)) ->
  0 <= scale -> 0 < ppu -> gradient_flow f p (scale * ppu) y1 ->
  Rabs (p + ppu * lg_update (O:=RF) RF (fun y => y) (fun y => y) mn mx p l scale ppu - y1) <= 9/100000.
Proof. exact logistic_flow. Qed.
Print Assumptions C64_logistic_update_is_flow.

(** That flow exists from every prediction and for every time. *)
Theorem C64_logistic_flow_exists : forall (mn mx l : R) dbg (a b p h : R), mn < mx -> l = mn \/ l = mx ->
  exists (f : R -> R) y1,
    (forall q, loss_get (O:=RF) dbg (LossLogistic mn mx) a b q l = Ok (f q)) /\ gradient_flow f p h y1.
Proof. exact logistic_flow_exists. Qed.
Print Assumptions C64_logistic_flow_exists.

(** C64.  For a label in between, the update leads to the weighted mean of where the flows for
    the two ends lead. *)
Theorem C64_logistic_update_between :
  forall (mn mx l : R) dbg (a b : R) (f0 f1 : R -> R) (p scale ppu y0 y1 : R), mn < mx -> mn <= l <= mx ->
  (forall q, loss_get (O:=RF) dbg (LossLogistic mn mx) a b q mn = Ok (f0 q)) ->
  (forall q, loss_get (O:=RF) dbg (LossLogistic mn mx) a b q mx = Ok (f1 q)) ->
  0 <= scale -> 0 < ppu -> gradient_flow f0 p (scale * ppu) y0 -> gradient_flow f1 p (scale * ppu) y1 ->
  Rabs (p + ppu * lg_update (O:=RF) RF (fun y => y) (fun y => y) mn mx p l scale ppu
        - ((l - mn) / (mx - mn) * y1 + (mx - l) / (mx - mn) * y0)) <= 9/100000.
Proof. exact logistic_between. Qed.
Print Assumptions C64_logistic_update_between.

(** C64.  So such an update can pass the minimum of the loss and go as far as one likes: there
    is no bound on the prediction it leads to ... *)
Theorem C64_logistic_update_unbounded : forall mn mx l p ppu B : R, mn < mx -> (mn + mx) / 2 < l <= mx -> 0 < ppu ->
  exists scale, 0 <= scale /\
    B <= p + ppu * lg_update (O:=RF) RF (fun y => y) (fun y => y) mn mx p l scale ppu.
Proof. exact overshoot. Qed.
Print Assumptions C64_logistic_update_unbounded.

(** ... and "the checked update of the logistic loss does not increase the loss" is false. *)
Theorem C64_update_decreases_loss_refuted : exists mn mx l p scale ppu v0 v1 : R,
  mn < l < mx /\ 0 <= scale /\ 0 < ppu /\
  loss_get (O:=RF) true (LossLogistic mn mx) mn mx p l = Ok v0 /\
  loss_get (O:=RF) true (LossLogistic mn mx) mn mx
    (p + ppu * lg_update (O:=RF) RF (fun y => y) (fun y => y) mn mx p l scale ppu) l = Ok v1 /\
  v0 < v1.
Proof. exact increases. Qed.
Print Assumptions C64_update_decreases_loss_refuted.

(** C64.  The update of the squared loss is its flow: exactly from [scale * ppu = 1e-6] on, and
    up to a factor 2e-12 below. *)
Theorem C64_squared_update_is_flow : forall l p scale ppu y1 : R, 0 <= scale -> 0 < ppu ->
  gradient_flow (fun q => (q - l) * (q - l)) p (scale * ppu) y1 ->
  (1/1000000 <= scale * ppu -> p + ppu * sq_update (O:=RF) p l scale ppu = y1) /\
  Rabs (p + ppu * sq_update (O:=RF) p l scale ppu - y1) <= 2 / 1000000000000 * Rabs (l - p).
Proof. exact squared_flow. Qed.
Print Assumptions C64_squared_update_is_flow.

(** That flow exists as well. *)
Theorem C64_squared_flow_exists : forall l p h : R,
  gradient_flow (fun q => (q - l) * (q - l)) p h (l + (p - l) * exp (-2 * h)).
Proof. exact sq_flow_exists. Qed.
Print Assumptions C64_squared_flow_exists.

(** C64.  However large the step, it ends between the prediction and the label. *)
Theorem C64_squared_update_between : forall l p scale ppu : R, 0 <= scale -> 0 < ppu ->
  exists th, 0 <= th <= 1 /\ p + ppu * sq_update (O:=RF) p l scale ppu = p + th * (l - p).
Proof. exact squared_no_overshoot. Qed.
Print Assumptions C64_squared_update_between.

(** The hypotheses of the logistic theorems are met: from the prediction 0, label 1. *)
Example C64_logistic_case : exists (f : R -> R) y1,
  (forall q, loss_get (O:=RF) true (LossLogistic 0 1) 0 1 q 1 = Ok (f q)) /\
  gradient_flow f 0 (3 * 2) y1 /\ (0 <= 3 /\ 0 < 2)%R.
Proof.
  destruct (C64_logistic_flow_exists 0 1 1 true 0 1 0 (3 * 2) ltac:(lra) (or_intror eq_refl)) as (f & y1 & E & G).
  exists f, y1. repeat split; auto; lra.
Qed.

Example C64_squared_case : gradient_flow (fun q => (q - 1) * (q - 1)) 3 (1 * 2) (1 + 2 * exp (-4)) /\ (1/1000000 <= 1 * 2)%R.
Proof.
  split; [|lra]. pose proof (C64_squared_flow_exists 1 3 (1 * 2)) as G.
  replace (-2 * (1 * 2)) with (-4) in G by ring. replace (3 - 1) with 2 in G by ring. exact G.
Qed.

Example C64_unbounded_case : (0 < 1 /\ (0 + 1) / 2 < 3/4 <= 1 /\ 0 < 2)%R.
Proof. lra. Qed.
