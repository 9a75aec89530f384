(** Workspaces that have learned contextual bandit examples of one cost only (C18). *)
From Coq Require Import List NArith.
From Verif Require Import Base FloatOps Model_Hash Model_Features Model_Weights Model_Types Model_Explore Model_Coin Model_Stack Spec_Features Spec_Stack.

Inductive learned_cost {O : FOps} (dbg : bool) (cost : O) {n : nat} (r0 : red O n) : red O n -> Prop :=
| lc_refl : learned_cost dbg cost r0 r0
| lc_learn : forall r f a p r' f', learned_cost dbg cost r0 r -> built_fts f ->
    ws_learn dbg r f (LbCb a cost p) = Ok (r', f') -> learned_cost dbg cost r0 r'.
