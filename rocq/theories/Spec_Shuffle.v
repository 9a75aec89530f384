(** What C88 talks about: the same features in another order. *)
From Coq Require Import List NArith ZArith Permutation.
From Verif Require Import Base FloatOps Model_Hash Model_Features Model_Weights Model_Interactions Model_Types Model_Explore Model_Coin Model_Stack
  Spec_Inter Spec_Empty.
Import ListNotations.

Section Shuffle.
Context {O : FOps}.
(** the same features in every namespace, in any order *)
Definition reordered (a b : sfeats O) : Prop := forall k, Permutation (in_ns k a) (in_ns k b).
Definition reordered_fts (f g : features O) : Prop :=
  match f, g with
  | FtsSimple a, FtsSimple b => reordered a b
  | FtsCb s x, FtsCb t y =>
      (match s, t with Some a, Some b => reordered a b | None, None => True | _, _ => False end) /\
      Forall2 reordered x y
  | _, _ => False
  end.
(** no interaction names the same namespace twice in a row *)
Definition no_repeat (H : hasher) (gc : gconfig) : Prop :=
  Forall (fun it => forall u d e v, it = u ++ d :: e :: v ->
    nsdef_namespace H (gc_seed gc) d <> nsdef_namespace H (gc_seed gc) e) (gc_inter gc).
(** the regressor meets no index twice: the features, their interactions and the constant
    have different indices *)
Definition no_clash (H : hasher) (gc : gconfig) (x : sfeats O) : Prop := forall ps ts l,
  sorted_into (nsdef_namespace H (gc_seed gc)) (gc_inter gc) ps ts ->
  fe_list false x ps ts (gc_bits gc) (gc_const gc) = Ok l -> NoDup (map fst l).
(** the same for an example: each action together with the context *)
Definition no_clash_fts (H : hasher) (gc : gconfig) (f : features O) : Prop :=
  match f with
  | FtsSimple a => no_clash H gc a
  | FtsCb s x => forall a y, In a x -> match s with Some sh => sf_append a sh | None => Ok a end = Ok y -> no_clash H gc y
  end.
(** the same example, with the features in another order *)
Definition reordered_example (H : hasher) (gc : gconfig) (x y : features O * label O) : Prop :=
  sound_fts (fst x) /\ sound_fts (fst y) /\ reordered_fts (fst x) (fst y) /\ no_clash_fts H gc (fst x) /\ snd x = snd y.
End Shuffle.
