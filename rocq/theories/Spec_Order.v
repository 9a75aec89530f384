(** When the order of combining shared and action features does not matter (C25). *)
From Coq Require Import List NArith.
From Verif Require Import Base FloatOps Model_Hash Model_Features Spec_Foreach.
Import ListNotations.

Section Spec.
Context {O : FOps}.
Implicit Types a b m : sfeats O.

(** inactive namespaces hold no features *)
Definition quiet m : Prop := forall k s, fm_get k m = Some s -> sfn_active s = false -> sfn_iter s = [].
(** only one of the two objects has features in namespace [k] *)
Definition one_sided a b (k : namespace) : Prop := feats_of k a = [] \/ feats_of k b = [].

(** interactions for which the order within a namespace does not matter *)
Definition pair_safe a b (p : namespace * namespace) : Prop :=
  fst p = snd p -> one_sided a b (fst p).
Definition triple_safe a b (t : namespace * namespace * namespace) : Prop :=
  let '(n1, n2, n3) := t in
  (n1 = n2 -> one_sided a b n1) /\ (n2 = n3 -> one_sided a b n1 /\ one_sided a b n3).

End Spec.
