(** C18: the scores of contextual bandit actions can leave the range of the costs. *)
From Coq Require Import List NArith ZArith Bool.
From Verif Require Import Base FloatOps FloatB32 Model_Hash Model_Features Model_Weights Model_Interactions Model_Types Model_Explore
  Model_Coin Model_Stack Model_Factory Spec_Features Spec_Stack Spec_Scores Proof_StackProps Proof_CoinR Proof_Scores.
Import ListNotations.
Open Scope N_scope.

(** C18 does not carry over to the scores of a contextual bandit stack, which are the raw predictions of its
    regressor: a workspace that has learned nothing but examples of cost 1 gives one action a score above 1 and
    another one a score above 3. *)
Theorem C18_scores_refuted : exists R r s0 s1 f',
  ws_new ex_hash false gc16n sc_cfg = Ok R /\ learned_cost false (@f1 BF0) (projT2 R) r /\ built_fts sc_ask /\
  ws_predict false r sc_ask = Ok (@PrScores BF0 [(0, s0); (1, s1)], f') /\
  f_gtb s0 f1 = true /\ f_gtb s1 (fl 3) = true.
Proof. exact scores_leave. Qed.
Print Assumptions C18_scores_refuted.
