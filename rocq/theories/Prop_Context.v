(** C87: without interactions of the context with the actions, the policy does not depend on
    the context. *)
From Coq Require Import List NArith ZArith Bool Reals.
From Verif Require Import Base FloatOps FloatR FloatB32 Model_Hash Model_Features Model_Interactions
  Model_Types Model_Coin Model_Stack Model_Factory Spec_Features Spec_Stack Spec_Reductions Spec_Total Spec_Empty Spec_Context
  Proof_StackProps Proof_EmptyProps Proof_Context Proof_ContextEx.
Import ListNotations.

(** The scores in two contexts differ by the same number for every action. *)
Theorem C87_scores : forall H dbg gc (c : rcfg RF) R0 r s s' acts sc sc' g g',
  ws_new H dbg gc c = Ok R0 -> reach dbg (projT2 R0) r -> elem_free (projT1 R0) (projT2 R0) ->
  sound_fts (FtsCb s acts) -> sound_fts (FtsCb s' acts) ->
  uncoupled H gc s acts -> uncoupled H gc s' acts ->
  ws_predict dbg r (FtsCb s acts) = Ok (PrScores sc, g) ->
  ws_predict dbg r (FtsCb s' acts) = Ok (PrScores sc', g') ->
  exists t : R, sc' = map (fun p => (fst p, ((snd p : R) + t)%R : RF)) sc.
Proof. exact context_scores. Qed.
Print Assumptions C87_scores.

(** The probabilities of the actions are the same in every context. *)
Theorem C87_probabilities : forall H dbg gc (c : rcfg RF) R0 r s s' acts q q' g g',
  ws_new H dbg gc c = Ok R0 -> reach dbg (projT2 R0) r -> elem_free (projT1 R0) (projT2 R0) ->
  sound_fts (FtsCb s acts) -> sound_fts (FtsCb s' acts) ->
  uncoupled H gc s acts -> uncoupled H gc s' acts ->
  ws_predict dbg r (FtsCb s acts) = Ok (PrProbs q, g) ->
  ws_predict dbg r (FtsCb s' acts) = Ok (PrProbs q', g') ->
  q = q'.
Proof. exact context_probs. Qed.
Print Assumptions C87_probabilities.

(** A greedy stack with an interaction within the actions, trained in one context and asked
    in two: the hypotheses hold and both calls return probabilities. *)
Example C87_example : forall eps : R, exists (R0 : anyred RF) r h1 q q' g g', ws_new ex_hash false ct_gc (ct_cfg eps) = Ok R0 /\
  elem_free (projT1 R0) (projT2 R0) /\
  ws_learn false (projT2 R0) (ct_fts 0) (LbCb 0%N (@f1 RF) (@f1 RF)) = Ok (r, h1) /\ reach false (projT2 R0) r /\
  ws_predict false r (ct_fts 0) = Ok (PrProbs q, g) /\ ws_predict false r (ct_fts 1) = Ok (PrProbs q', g').
Proof. exact ct_example. Qed.
Example C87_example_sides : (forall i, sound_fts (ct_fts i)) /\
  (forall i, (i < 2)%nat -> uncoupled ex_hash ct_gc (Some (ct_store i)) ct_acts).
Proof. exact (conj ct_sound_fts ct_uncoupled). Qed.
(** In binary32, with an interaction of the context with the actions the preferred action
    depends on the context; without it, it does not. *)
Example C87_coupled_example : pz_first true 0 = Some true /\ pz_first true 1 = Some false /\
  pz_first false 0 = Some true /\ pz_first false 1 = Some true.
Proof. exact pz_example. Qed.
