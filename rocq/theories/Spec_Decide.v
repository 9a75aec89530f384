(** Vocabulary for the decision guarantees of exploration policies (exact arithmetic). *)
From Coq Require Import List NArith Reals.
Import ListNotations.
Open Scope R_scope.

(** The expected cost of an action drawn from a list of (action, probability) pairs,
    where action a costs [f a]. *)
Fixpoint expect (f : N -> R) (r : list (N * R)) : R :=
  match r with [] => 0 | (a, q) :: t => q * f a + expect f t end.

(** The expected squared error of the scores, at an action drawn from the
    distribution (the two lists hold the same actions in the same order). *)
Fixpoint score_error (f : N -> R) (scores r : list (N * R)) : R :=
  match scores, r with
  | (a, c) :: s, (_, q) :: t => q * (c - f a)² + score_error f s t
  | _, _ => 0
  end.

(** All the costs of the listed actions lie between lo and hi. *)
Definition within (lo hi : R) (f : N -> R) (l : list (N * R)) : Prop :=
  forall a c, In (a, c) l -> lo <= f a <= hi.

(** Every score is at most delta away from the cost. *)
Definition accurate (delta : R) (f : N -> R) (scores : list (N * R)) : Prop :=
  forall a c, In (a, c) scores -> Rabs (c - f a) <= delta.
