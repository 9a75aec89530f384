(** C88: the order of the features does not matter. *)
From Coq Require Import List NArith ZArith Bool Reals.
From Verif Require Import Base FloatOps FloatR FloatB32 Model_Hash Model_Features Model_Interactions
  Model_Types Model_Coin Model_Stack Model_Factory Spec_Features Spec_Stack Spec_Reductions Spec_Total Spec_Empty Spec_Delegate Spec_Shuffle
  Proof_StackProps Proof_EmptyProps Proof_Shuffle Proof_ShuffleEx.
Import ListNotations.

(** The prediction is the same for the features in any order. *)
Theorem C88_predict : forall H gc (NR : no_repeat H gc) (c : rcfg RF) R0 r f g p f',
  ws_new H false gc c = Ok R0 -> reach false (projT2 R0) r -> elem_free (projT1 R0) (projT2 R0) ->
  sound_fts f -> sound_fts g -> reordered_fts f g ->
  ws_predict false r f = Ok (p, f') -> exists g', ws_predict false r g = Ok (p, g').
Proof. exact reordered_predict. Qed.
Print Assumptions C88_predict.

(** Learning leads to the same model, when no two features have the same index. *)
Theorem C88_learn : forall H gc (NR : no_repeat H gc) (c : rcfg RF) R0 r f g lb r' f',
  ws_new H false gc c = Ok R0 -> reach false (projT2 R0) r -> elem_free (projT1 R0) (projT2 R0) ->
  sound_fts f -> sound_fts g -> reordered_fts f g -> no_clash_fts H gc f ->
  ws_learn false r f lb = Ok (r', f') -> exists g', ws_learn false r g lb = Ok (r', g').
Proof. exact reordered_learn. Qed.
Print Assumptions C88_learn.

(** Training on a data set leads to the same model, whatever the order of the features in
    each example. *)
Theorem C88_training : forall H gc (NR : no_repeat H gc) (c : rcfg RF) R0 exs exs' r,
  ws_new H false gc c = Ok R0 -> elem_free (projT1 R0) (projT2 R0) ->
  Forall2 (reordered_example H gc) exs exs' ->
  learn_all false (projT2 R0) exs = Ok r -> learn_all false (projT2 R0) exs' = Ok r.
Proof. exact reordered_training. Qed.
Print Assumptions C88_training.

(** A greedy stack with an interaction of the context with the actions: the hypotheses hold
    for one example in two orders, and the calls on the first order return. *)
Example C88_example : forall eps : R, exists (R0 : anyred RF) r h1 q g, ws_new ex_hash false sh_gc (sh_cfg eps) = Ok R0 /\
  elem_free (projT1 R0) (projT2 R0) /\
  ws_learn false (projT2 R0) (sh_fts 0) (LbCb 0%N (@f1 RF) (@f1 RF)) = Ok (r, h1) /\ reach false (projT2 R0) r /\
  ws_predict false r (sh_fts 0) = Ok (PrProbs q, g).
Proof. exact sh_example. Qed.
Example C88_example_sides : no_repeat ex_hash sh_gc /\ (forall lb, reordered_example ex_hash sh_gc (sh_fts 0, lb) (sh_fts 1, lb)) /\
  sh_fts 0 <> sh_fts 1.
Proof. exact (conj sh_no_repeat (conj sh_example_ok sh_differ)). Qed.
(** With an interaction of a namespace with itself the prediction depends on the order. *)
Example C88_self_example : tw_ask true 0 0 <> tw_ask true 0 1 /\ tw_ask false 0 0 = tw_ask false 0 1.
Proof. exact tw_self. Qed.
(** With two features of the same index the model depends on the order. *)
Example C88_twice_example : tw_ask false 2 2 <> tw_ask false 3 2 /\ tw_ask false 0 0 = tw_ask false 1 0.
Proof. exact tw_twice. Qed.
