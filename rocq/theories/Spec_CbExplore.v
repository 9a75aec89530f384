(** Vocabulary for the statements about exploration reductions (exact arithmetic). *)
From Coq Require Import List NArith Reals.
Import ListNotations.
Open Scope R_scope.

(** [i] is the position of the first action of minimal cost. *)
Definition first_min (scores : list (N * R)) (i : nat) : Prop :=
  exists a c, nth_error scores i = Some (a, c) /\
    forall j b d, nth_error scores j = Some (b, d) -> c <= d /\ ((j < i)%nat -> c < d).

(** The exact softmax weight of a cost in a list of costs. *)
Definition sum_exp (lambda : R) (scores : list (N * R)) : R :=
  fold_right (fun s acc => exp (- lambda * snd s) + acc) 0 scores.
