(** Vocabulary for the statements about exploration distributions (exact arithmetic). *)
From Coq Require Import List NArith Reals.
Import ListNotations.
Open Scope R_scope.

(** sum of the values of a list of (action, value) pairs *)
Fixpoint total (l : list (N * R)) : R :=
  match l with [] => 0 | (_, p) :: r => p + total r end.

Definition nonneg (l : list (N * R)) : Prop := forall a p, In (a, p) l -> 0 <= p.

(** An action counts if zero-valued actions are considered or its value is positive. *)
Definition counting (consider : bool) (p : R) : Prop := consider = true \/ 0 < p.

(** [ncount consider l n]: exactly n entries of l count. *)
Inductive ncount (consider : bool) : list (N * R) -> nat -> Prop :=
| nc_nil : ncount consider [] 0
| nc_yes : forall a p l n, counting consider p -> ncount consider l n -> ncount consider ((a, p) :: l) (S n)
| nc_no : forall a p l n, ~ counting consider p -> ncount consider l n -> ncount consider ((a, p) :: l) n.
