(** What the statements about off-policy evaluation talk about (exact arithmetic). *)
From Coq Require Import List NArith Reals.
From Verif Require Import Base FloatOps FloatR Model_Features Model_Types Spec_Explore Spec_Decide Spec_Metrics.
Import ListNotations.
Open Scope R_scope.

(** A logged interaction: in each round the logging policy draws an action from
    [logging], only its cost is seen, and the evaluated policy would have drawn from
    [pred].  What happens in later rounds may depend in any way on the actions drawn so
    far: the logging policy may adapt, and the evaluated policy may learn from the log. *)
Inductive game : Type :=
| Over
| Round (f : features RF) (logging : list (N * R)) (cost : N -> R) (pred : list (N * R)) (next : N -> game).

(** The expectation of a quantity computed from the logged points. *)
Fixpoint mean_over (g : game) (v : list (point RF) -> R) : R :=
  match g with
  | Over => v []
  | Round f logging cost pred next =>
      fold_right (fun e acc =>
        snd e * mean_over (next (fst e)) (fun l => v (mkPt f (LbCb (fst e) (cost (fst e)) (snd e)) (PrProbs pred) :: l)) + acc)
        0 logging
  end.

(** The logs that can occur. *)
Inductive log_of : game -> list (point RF) -> Prop :=
| lo_over : log_of Over []
| lo_round : forall f logging cost pred next a p l, In (a, p) logging -> log_of (next a) l ->
    log_of (Round f logging cost pred next) (mkPt f (LbCb a (cost a) p) (PrProbs pred) :: l).

(** The expected total reward of the evaluated policy, the actions of the log only
    deciding which rounds are reached. *)
Fixpoint true_reward (g : game) : R :=
  match g with
  | Over => 0
  | Round _ logging cost pred next =>
      - expect cost pred + fold_right (fun e acc => snd e * true_reward (next (fst e)) + acc) 0 logging
  end.

(** [n] rounds; the logging policy draws each action of the evaluated policy with
    positive probability. *)
Inductive fair : nat -> game -> Prop :=
| fr_over : fair 0 Over
| fr_round : forall n f logging cost pred next,
    (forall a p, In (a, p) logging -> 0 < p) -> total logging = 1 ->
    NoDup (map fst logging) -> NoDup (map fst pred) ->
    (forall a, In a (map fst pred) <-> In a (map fst logging)) ->
    (forall a, In a (map fst logging) -> fair n (next a)) ->
    fair (S n) (Round f logging cost pred next).
