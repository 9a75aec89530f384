(** What C96 talks about: features that occur several times. *)
From Coq Require Import List NArith ZArith Reals.
From Verif Require Import Base FloatOps FloatR Model_Hash Model_Features Model_Types Spec_Features Spec_Empty.
Import ListNotations.
Open Scope N_scope.

(** the sum of the values of the features with index [i] *)
Fixpoint value_at (i : N) (l : list (N * RF)) : R :=
  match l with
  | [] => 0%R
  | (j, v) :: l => if N.eqb j i then (v + value_at i l)%R else value_at i l
  end.
(** in every namespace the same indices, with the same sum of values *)
Definition merged (a b : sfeats RF) : Prop := forall k i,
  (In i (map fst (in_ns k a)) <-> In i (map fst (in_ns k b))) /\ value_at i (in_ns k a) = value_at i (in_ns k b).
Definition merged_fts (f g : features RF) : Prop :=
  match f, g with
  | FtsSimple a, FtsSimple b => merged a b
  | FtsCb s x, FtsCb t y =>
      (match s, t with Some a, Some b => merged a b | None, None => True | _, _ => False end) /\ Forall2 merged x y
  | _, _ => False
  end.
(** the regression prediction before it is cut to the range of labels and linked *)
Definition raw_of (p : prediction RF) : R := match p with PrScalar _ q => q | _ => 0%R end.
(** in every namespace the values of [x] are [al] times those of [a] plus [be] times those of [b] *)
Definition mixture (al be : R) (a b x : sfeats RF) : Prop := forall k i,
  value_at i (in_ns k x) = (al * value_at i (in_ns k a) + be * value_at i (in_ns k b))%R.

(** one feature given twice, and given once with the values added *)
Definition twice {O : FOps} (k : namespace) (i : N) (v : O) : list (fop O) := [FAdd 0 k i v; FAdd 0 k i v].
Definition once {O : FOps} (k : namespace) (i : N) (v : O) : list (fop O) := [FAdd 0 k i (f_add O v v)].
