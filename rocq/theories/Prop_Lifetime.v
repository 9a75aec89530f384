(** C80: property theorems about exploring stacks over their lifetime in single precision. *)
From Coq Require Import List NArith ZArith Bool Reals.
From Verif Require Import Base FloatOps FloatB32 FloatV32 Model_Hash Model_Features Model_Weights Model_Interactions Model_Types Model_Explore
  Model_Coin Model_Stack Model_Factory Spec_Coin Spec_Stack Spec_Reductions Spec_Total Spec_FloatReal Spec_Lifetime
  Proof_StackProps Proof_Lifetime Proof_LifetimeEx.
Import ListNotations.
Open Scope N_scope.

(** C80.  Any configuration that explores, without the element-wise reduction; any
    history of learn and predict_then_learn; release build; any features built through
    the public functions with indices inside the table and up to 3000 actions.  Then the
    exploration still has the configured parameters, the reduction below it returns one
    score per action, in order, and none is NaN.  If the parameters are in range and, for
    softmax and SquareCB, no score is infinite, then predict returns a distribution. *)
Theorem C80_lifetime : forall (vexp vln : v32 -> v32) (vpow : v32 -> v32 -> v32), let V := VF vexp vln vpow in
  forall H gc (c : rcfg V) R r (f : features V) n,
  ws_new H false gc c = Ok R -> reach false (projT2 R) r -> uses_elem (projT2 R) = false ->
  bits_to_max_feature_index false (gc_bits gc) = Ok n -> built_fts f -> all_below n f -> feat_type_of f = FTCb ->
  td_out_pred (red_types (projT2 R)) = PTProbs -> 0 < num_actions f <= 3000 ->
  exists k0 k m (ch : red V m) (sc : list (N * V)) f1, explorer_of c = Some k0 /\ same_explorer k0 k /\ topmost _ r k m ch /\
    ws_predict false ch f = Ok (PrScores sc, f1) /\ map fst sc = map N.of_nat (seq 0 (N.to_nat (num_actions f))) /\
    (forall a s, In (a, s) sc -> f_isnan V s = false) /\
    (settled vexp vln vpow k sc -> exists pr : list (N * V), ws_predict false r f = Ok (PrProbs pr, f1) /\ map fst pr = map fst sc /\
       fdist (unl pr) (INR (length sc) * p2 (-18))).
Proof. exact lifetime. Qed.
Print Assumptions C80_lifetime.

(** SquareCB after seven examples; the last condition holds for it too. *)
Example C80_lifetime_example : exists R r, ws_new ex_hash false ex_gc sq_cfg = Ok R /\ reach false (projT2 R) r /\ uses_elem (projT2 R) = false /\
  bits_to_max_feature_index false (gc_bits ex_gc) = Ok 16 /\ built_fts (twins (v_lit 1 1)) /\ all_below 16 (twins (v_lit 1 1)) /\
  feat_type_of (twins (v_lit 1 1)) = FTCb /\ td_out_pred (red_types (projT2 R)) = PTProbs /\ 0 < num_actions (twins (v_lit 1 1)) <= 3000 /\
  exists k m (ch : red VF0 m) (sc : list (N * v32)) f1, topmost _ r k m ch /\ ws_predict false ch (twins (v_lit 1 1)) = Ok (@PrScores VF0 sc, f1) /\
    settled _ _ _ k sc.
Proof. exact lifetime_ex. Qed.

(** C80 without the condition on infinite scores is false: SquareCB with ordinary
    parameters, trained on seven ordinary examples, panics on an example whose values are
    finite but so large that the scores overflow. *)
Theorem C80_overflow_refuted : exists (c : rcfg VF0) R r (f : features VF0) ueps gs ge,
  ws_new ex_hash false ex_gc c = Ok R /\ reach false (projT2 R) r /\ uses_elem (projT2 R) = false /\
  bits_to_max_feature_index false (gc_bits ex_gc) = Ok 16 /\ built_fts f /\ all_below 16 f /\ feat_type_of f = FTCb /\
  td_out_pred (red_types (projT2 R)) = PTProbs /\ num_actions f = 2 /\
  all_values (fun v : VF0 => bfin (un v) = true) f /\
  explorer_of c = Some (KSquareCb ueps gs ge 0) /\ rate (un ueps) /\ gs = f1 /\ ge = f1 /\
  ws_predict false r f = Pn PNaN.
Proof. exact overflow_panics. Qed.
Print Assumptions C80_overflow_refuted.
