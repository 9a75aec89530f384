(** What C99 talks about: features that no training example had. *)
From Coq Require Import List NArith ZArith Reals.
From Verif Require Import Base FloatOps FloatR Model_Hash Model_Features Model_Weights Model_Types Model_Coin Model_Stack
  Spec_Features Spec_Coin Spec_Stack Spec_Empty Spec_Merge.
Import ListNotations.
Open Scope N_scope.

(** [i] is the index of a feature, an interaction or the constant of one of the objects [ts]
    shown to the regressor *)
Definition seen {O : FOps} (c : coin O) (ts : list (sfeats O)) (i : N) : Prop := exists t, In t ts /\ uses false c t i.

(** with the interactions and the constant, [a] and [b] have the same total value at all
    indices in [P] *)
Definition like (c : coin RF) (P : N -> Prop) (a b : sfeats RF) : Prop := forall l k,
  fe_list false a (co_pairs c) (co_triples c) (co_bits c) (co_const c) = Ok l ->
  fe_list false b (co_pairs c) (co_triples c) (co_bits c) (co_const c) = Ok k ->
  forall i, P i -> value_at i l = value_at i k.
Definition with_context (a : sfeats RF) (s : option (sfeats RF)) : out (sfeats RF) := match s with Some sh => sf_append a sh | None => Ok a end.
(** the same for examples: each action together with the context *)
Definition like_fts (c : coin RF) (P : N -> Prop) (f g : features RF) : Prop :=
  match f, g with
  | FtsSimple a, FtsSimple b => like c P a b
  | FtsCb s x, FtsCb t y => (s = None <-> t = None) /\
      Forall2 (fun a b => forall u v, with_context a s = Ok u -> with_context b t = Ok v -> like c P u v) x y
  | _, _ => False
  end.

(** in every namespace [a] and [b] have the same total value at all indices in [P] *)
Definition same_on (P : N -> Prop) (a b : sfeats RF) : Prop := forall k i, P i -> value_at i (in_ns k a) = value_at i (in_ns k b).
Definition same_fts_on (P : N -> Prop) (f g : features RF) : Prop :=
  match f, g with
  | FtsSimple a, FtsSimple b => same_on P a b
  | FtsCb s x, FtsCb t y =>
      (match s, t with Some a, Some b => same_on P a b | None, None => True | _, _ => False end) /\ Forall2 (same_on P) x y
  | _, _ => False
  end.

(** the second list is the first one without some of the entries, with indices outside [P] and
    finite values *)
Inductive leaves_out {O : FOps} (P : N -> Prop) : list (N * O) -> list (N * O) -> Prop :=
| lo_nil : leaves_out P [] []
| lo_keep p l k : leaves_out P l k -> leaves_out P (p :: l) (p :: k)
| lo_drop i v l k : ~ P i -> f_isnan O v = false -> f_isinf O v = false -> leaves_out P l k -> leaves_out P ((i, v) :: l) k.
