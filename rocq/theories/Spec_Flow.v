(** What the statements about the updates of the loss functions talk about (C64).  No
    reference to the model. *)
From Coq Require Import Reals.
Open Scope R_scope.

(** Gradient descent with infinitely small steps: moving from [y0] against the gradient of
    [loss] for the time [h] leads to [y1]. *)
Definition gradient_flow (loss : R -> R) (y0 h y1 : R) : Prop :=
  exists y : R -> R, y 0 = y0 /\ y h = y1 /\
    forall t, 0 <= t <= h -> exists d, derivable_pt_lim loss (y t) d /\ derivable_pt_lim y t (- d).

(** Lambert's function: [v] is W(z). *)
Definition lambertW (z v : R) : Prop := 0 < v /\ v * exp v = z.
