(** How configured interactions are meant to be sorted by length (C35). *)
From Coq Require Import List NArith.
From Verif Require Import Base Model_Hash Model_Features Model_Interactions.
Import ListNotations.

(** [sorted_into is ps ts]: [ps] are the interactions of two namespaces and [ts] those of
    three, in configuration order, and there are no others. *)
Inductive sorted_into (ns : nsdef -> namespace)
  : list interaction -> list (namespace * namespace) -> list (namespace * namespace * namespace) -> Prop :=
| si_nil : sorted_into ns [] [] []
| si_pair : forall a b r ps ts, sorted_into ns r ps ts -> sorted_into ns ([a; b] :: r) ((ns a, ns b) :: ps) ts
| si_triple : forall a b c r ps ts, sorted_into ns r ps ts ->
    sorted_into ns ([a; b; c] :: r) ps ((ns a, ns b, ns c) :: ts).
