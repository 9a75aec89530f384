(** Property theorems: calls return (C24, C49). *)
From Coq Require Import List NArith Bool.
From Verif Require Import Base FloatOps FloatB32 Model_Hash Model_Features Model_Weights Model_Loss Model_Interactions Model_Types Model_Explore Model_Coin
  Model_Stack Model_Factory Proof_FloatOrder Spec_Stack Spec_Reductions Spec_Total Proof_StackProps Proof_Total.
Import ListNotations.
Open Scope N_scope.

(** C24.  binary32, any stack without the element-wise reduction, any state reached by
    training, plain features inside the table.  If the mtr cost type is used, there have
    to be shared features and the labelled action has to exist; with debug assertions
    on, the probability has to be positive, the 64 bit counters must not overflow and no
    value may be NaN.  Then learn returns, and the features look as before. *)
Theorem C24_learn_returns :
  forall e l p, let O := BF e l p in
  forall H dbg gc (c : rcfg O) R r (f : features O) lb n,
  ws_new H dbg gc c = Ok R -> reach dbg (projT2 R) r -> uses_elem (projT2 R) = false ->
  bits_to_max_feature_index dbg (gc_bits gc) = Ok n ->
  plain f -> all_below n f ->
  feat_type_of f = td_in_feats (red_types (projT2 R)) -> label_type_of lb = td_in_label (red_types (projT2 R)) ->
  (uses_mtr (projT2 R) = true -> mtr_example f lb) ->
  (dbg = true -> prob_pos lb /\ has_room (num_actions f) (counters _ r) /\ all_values (fun v => f_isnan O v = false) f) ->
  exists r' f', ws_learn dbg r f lb = Ok (r', f') /\ fts_same f f'.
Proof. exact (fun e l p => learn_returns (BF_ford e l p) eq_refl b_self). Qed.
Print Assumptions C24_learn_returns.

(** The hypotheses hold for a stack with the default cost type. *)
Example C24_example : exists R, ws_new ex_hash true ex_gc mtr_debug = Ok R /\
  uses_elem (projT2 R) = false /\ uses_weighted (projT2 R) = false /\ uses_mtr (projT2 R) = true /\
  bits_to_max_feature_index true (gc_bits ex_gc) = Ok 16 /\ plain ex_fts /\ all_below 16 ex_fts /\
  feat_type_of ex_fts = td_in_feats (red_types (projT2 R)) /\ label_type_of ex_lb = td_in_label (red_types (projT2 R)) /\
  mtr_example ex_fts ex_lb /\ prob_pos ex_lb /\ has_room (num_actions ex_fts) (counters _ (projT2 R)) /\
  num_actions ex_fts = 2 /\ all_values (fun v : BF0 => f_isnan BF0 v = false) ex_fts.
Proof. exact mtr_example_ok. Qed.

(** C24 without the condition on shared features is false: the default cost type runs
    into [todo!()]. *)
Theorem C24_no_shared_refuted : exists R, ws_new ex_hash false ex_gc mtr_cfg = Ok R /\ plain mtr_noshared /\
  (1 < length (match mtr_noshared with FtsCb _ x => x | _ => [] end))%nat /\
  ws_learn false (projT2 R) mtr_noshared ex_lb = Pn PTodo.
Proof. exact mtr_noshared_panics. Qed.
Print Assumptions C24_no_shared_refuted.

(** An action outside the example panics with mtr but is accepted with ips. *)
Theorem C24_action_out_of_range :
  (exists R, ws_new ex_hash false ex_gc mtr_cfg = Ok R /\ plain ex_fts /\
     ws_learn false (projT2 R) ex_fts far_lb = Pn PNone) /\
  (exists R, ws_new ex_hash false ex_gc ex_cfg = Ok R /\ plain ex_fts /\
     ok_of (ws_learn false (projT2 R) ex_fts far_lb) = true).
Proof. exact (conj mtr_range_panics ips_range_accepted). Qed.
Print Assumptions C24_action_out_of_range.

(** With debug assertions a NaN feature value makes learn panic: the comparison of the
    features before and after the call fails. *)
Theorem C24_nan_value_debug : exists R, ws_new ex_hash true ex_gc (CCoin (@coin_default BF0)) = Ok R /\
  plain nan_fts /\ all_below 16 nan_fts /\
  ws_learn true (projT2 R) nan_fts (LbSimple f1 f1) = Pn PAssert.
Proof. exact nan_value_panics. Qed.
Print Assumptions C24_nan_value_debug.

(** C49.  Under the same conditions predict returns a prediction of the declared type,
    for stacks without softmax and SquareCB; a greedy stack needs at least one action. *)
Theorem C49_predict_returns :
  forall e l p, let O := BF e l p in
  forall H dbg gc (c : rcfg O) R r (f : features O) n,
  ws_new H dbg gc c = Ok R -> reach dbg (projT2 R) r -> uses_elem (projT2 R) = false -> uses_weighted (projT2 R) = false ->
  bits_to_max_feature_index dbg (gc_bits gc) = Ok n ->
  plain f -> all_below n f ->
  feat_type_of f = td_in_feats (red_types (projT2 R)) ->
  (td_out_pred (red_types (projT2 R)) = PTProbs -> num_actions f <> 0) ->
  (dbg = true -> all_values (fun v => f_isnan O v = false) f) ->
  exists pr f', ws_predict dbg r f = Ok (pr, f') /\ pred_type_of pr = td_out_pred (red_types (projT2 R)) /\ fts_same f f'.
Proof. exact (fun e l p => predict_returns (BF_ford e l p) b_self). Qed.
Print Assumptions C49_predict_returns.
