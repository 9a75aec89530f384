(** Which weights an exported model has (C90). *)
From Coq Require Import List NArith Bool.
From Verif Require Import Base FloatOps Model_Hash Model_Features Model_Weights Model_Types Model_Coin Model_Stack Model_Factory
  Spec_Coin Spec_Stack Spec_Elem Spec_ElemStack.
Import ListNotations.
Open Scope N_scope.

Section Spec.
Context {O : FOps}.

(** The example [e] shows the regressor of the stack the feature objects [ts]. *)
Definition shows {n} (r : red O n) (e : features O * label O) (ts : list (sfeats O)) : Prop :=
  built_fts (fst e) /\ meets (labelled (snd e)) n r (fst e) ts.

(** The indices with an entry in an exported model. *)
Definition entries (d : ndweights O) : list N := map fst (nd_map d).

(** The object holds one namespace, with a vector of at most [d] positions, and nothing else. *)
Definition one_vector (nb : N) (s : sfeats O) (ns : namespace) (d : N) : Prop :=
  built s /\ (forall k, k <> ns -> fm_get k s = None) /\
  exists v : vec O, holds nb s ns v /\ increasing v /\ Forall (fun p => fst p < d) v.

(** The examples of the documentation: a vector in the shared features, one in the labelled action. *)
Definition two_vectors (nb : N) (one two : namespace) (d : N) (e : features O * label O) : Prop :=
  exists sh xs act cost prob a, e = (FtsCb (Some sh) xs, LbCb act cost prob) /\ (forall x, In x xs -> built x) /\
    nth_error xs (N.to_nat act) = Some a /\ one_vector nb a one d /\ one_vector nb sh two d.
End Spec.
