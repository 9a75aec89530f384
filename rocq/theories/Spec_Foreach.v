(** Positions and values of features, for the statements about interactions. *)
From Coq Require Import List NArith.
From Verif Require Import Base FloatOps Model_Hash Model_Features.
Import ListNotations.
Open Scope N_scope.

Section Spec.
Context {O : FOps}.
Implicit Types m : sfeats O.

(** the features of an active namespace; none if missing or inactive *)
Definition feats_of (n : namespace) m : list (N * O) :=
  match sf_get n m with Some s => sfn_iter s | None => [] end.

Definition fidx (l : list (N * O)) (i : nat) : N := fst (nth i l (0, f0)).
Definition fval (l : list (N * O)) (i : nat) : O := snd (nth i l (0, f0)).

End Spec.
