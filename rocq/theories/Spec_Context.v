(** What C87 talks about: interactions that do not couple the context with the actions. *)
From Coq Require Import List NArith ZArith.
From Verif Require Import Base FloatOps Model_Hash Model_Features Model_Interactions Model_Types Spec_Empty.
Import ListNotations.

Section Context.
Context {O : FOps}.
(** the features of the context in a namespace *)
Definition in_context (k : namespace) (s : option (sfeats O)) : list (N * O) :=
  match s with Some m => in_ns k m | None => [] end.
(** An interaction stays on one side: its namespaces hold no features of the context, or
    they hold no features of any action. *)
Definition one_side (H : hasher) (seed : N) (s : option (sfeats O)) (acts : list (sfeats O)) (it : interaction) : Prop :=
  (forall d, In d it -> in_context (nsdef_namespace H seed d) s = []) \/
  (forall d a, In d it -> In a acts -> in_ns (nsdef_namespace H seed d) a = []).
Definition uncoupled (H : hasher) (gc : gconfig) (s : option (sfeats O)) (acts : list (sfeats O)) : Prop :=
  Forall (one_side H (gc_seed gc) s acts) (gc_inter gc).
End Context.
