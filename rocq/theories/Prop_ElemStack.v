(** C81: when the calls return on stacks with element-wise interactions (release build). *)
From Coq Require Import List NArith ZArith Bool.
From Verif Require Import Base FloatOps FloatB32 Model_Hash Model_Features Model_Weights Model_Interactions Model_Types Model_Explore Model_Coin Model_Stack
  Model_Factory Spec_Features Spec_Coin Spec_Stack Spec_Reductions Spec_Total Spec_Elem Spec_ElemStack Proof_FloatOrder
  Proof_StackProps Proof_ElemStack Proof_ElemStackEx.
Import ListNotations.
Open Scope N_scope.

(** Prediction returns, with a prediction of the announced type, if and only if the
    features shown to the regressor are inside its table; otherwise it panics. *)
Theorem C81_predict : forall e l p H gc (c : rcfg (BF e l p)) R r f ts,
  ws_new H false gc c = Ok R -> reach false (projT2 R) r -> gc_bits gc < 32 -> uses_weighted (projT2 R) = false ->
  built_fts f -> (td_out_pred (red_types (projT2 R)) = PTProbs -> num_actions f <> 0) ->
  finds _ (projT2 R) f ts ->
  (Forall (below (2 ^ gc_bits gc)) ts ->
     exists pr f', ws_predict false r f = Ok (pr, f') /\ pred_type_of pr = td_out_pred (red_types (projT2 R))) /\
  (~ Forall (below (2 ^ gc_bits gc)) ts -> exists q, ws_predict false r f = Pn q).
Proof. exact (fun e l p => elem_predict (BF_ford e l p)). Qed.
Print Assumptions C81_predict.

(** The same for learning. *)
Theorem C81_learn : forall e l p H gc (c : rcfg (BF e l p)) R r f lb ts,
  ws_new H false gc c = Ok R -> reach false (projT2 R) r -> gc_bits gc < 32 ->
  built_fts f -> feat_type_of f = td_in_feats (red_types (projT2 R)) -> label_type_of lb = td_in_label (red_types (projT2 R)) ->
  meets (labelled lb) _ (projT2 R) f ts ->
  (Forall (below (2 ^ gc_bits gc)) ts -> exists r' f', ws_learn false r f lb = Ok (r', f')) /\
  (~ Forall (below (2 ^ gc_bits gc)) ts -> exists q, ws_learn false r f lb = Pn q).
Proof. exact (fun e l p => elem_learn (BF_ford e l p)). Qed.
Print Assumptions C81_learn.

(** One element-wise reduction over the regressor: the calls return if and only if the
    index of every product is inside the table. *)
Theorem C81_vectors : forall e l p H gc d1 d2 keep cc R r s (v w : vec (BF e l p)),
  ws_new H false gc (CElem d1 d2 keep (CCoin cc)) = Ok R -> reach false (projT2 R) r -> gc_bits gc < 32 ->
  built s -> below (2 ^ gc_bits gc) s ->
  let one := nsdef_namespace H (gc_seed gc) d1 in let two := nsdef_namespace H (gc_seed gc) d2 in
  vectors (gc_bits gc) s one two keep v w ->
  (products_fit (gc_bits gc) one two v w ->
     (exists pr f', ws_predict false r (FtsSimple s) = Ok (pr, f')) /\
     (forall y wt, exists r' f', ws_learn false r (FtsSimple s) (LbSimple y wt) = Ok (r', f'))) /\
  (~ products_fit (gc_bits gc) one two v w ->
     (exists q, ws_predict false r (FtsSimple s) = Pn q) /\
     (forall y wt, exists q, ws_learn false r (FtsSimple s) (LbSimple y wt) = Pn q)).
Proof. exact (fun e l p => one_level (BF_ford e l p)). Qed.
Print Assumptions C81_vectors.

(** Features inside the table are not enough on such a stack. *)
Theorem C81_inside_is_enough_refuted : ~ forall H gc c R (s : sfeats BF0),
  ws_new H false gc c = Ok R -> gc_bits gc < 32 -> built s -> below (2 ^ gc_bits gc) s ->
  td_in_feats (red_types (projT2 R)) = FTSimple -> exists res, ws_predict false (projT2 R) (FtsSimple s) = Ok res.
Proof.
  intros A. destruct es_outside as (R & s & E & B & Bl & T & (p & P) & _).
  destruct (A _ _ _ R s E eq_refl B Bl T) as (res & Q). rewrite P in Q. discriminate.
Qed.
Print Assumptions C81_inside_is_enough_refuted.

(** Two vectors sharing positions 0 and 5 (inside) and two sharing positions 0 and 6 (outside),
    in a table of 16 entries. *)
Example C81_vectors_example : forall keep, exists R, ws_new ex_hash false ex_gc (es_cfg keep) = Ok R /\ gc_bits ex_gc < 32 /\
  (built (es_store 0%nat) /\ below (2 ^ 4) (es_store 0%nat) /\
   vectors 4 (es_store 0%nat) (nsdef_namespace ex_hash 0 (NDName es_b)) (nsdef_namespace ex_hash 0 (NDName es_e)) keep (es_vec [0; 5]) (es_vec [0; 3; 5]) /\
   products_fit 4 (nsdef_namespace ex_hash 0 (NDName es_b)) (nsdef_namespace ex_hash 0 (NDName es_e)) (es_vec [0; 5]) (es_vec [0; 3; 5])) /\
  (built (es_store 1%nat) /\ below (2 ^ 4) (es_store 1%nat) /\
   vectors 4 (es_store 1%nat) (nsdef_namespace ex_hash 0 (NDName es_b)) (nsdef_namespace ex_hash 0 (NDName es_e)) keep (es_vec [0; 6]) (es_vec [0; 6]) /\
   ~ products_fit 4 (nsdef_namespace ex_hash 0 (NDName es_b)) (nsdef_namespace ex_hash 0 (NDName es_e)) (es_vec [0; 6]) (es_vec [0; 6])).
Proof. exact es_one. Qed.

(** A contextual bandit stack over the element-wise reduction: two actions, one namespace in
    the shared features and one in each action. *)
Example C81_bandit_example : exists R ts us, ws_new ex_hash false ex_gc es_cb = Ok R /\ gc_bits ex_gc < 32 /\ uses_weighted (projT2 R) = false /\
  built_fts (es_ftr [3; 4]%nat) /\ num_actions (es_ftr [3; 4]%nat) <> 0 /\
  feat_type_of (es_ftr [3; 4]%nat) = td_in_feats (red_types (projT2 R)) /\
  label_type_of (LbCb 0 (fl (O:=BF0) 1%Z) (fl (O:=BF0) 1%Z)) = td_in_label (red_types (projT2 R)) /\
  finds _ (projT2 R) (es_ftr [3; 4]%nat) ts /\ length ts = 2%nat /\ Forall (below (2 ^ gc_bits ex_gc)) ts /\
  meets 0 _ (projT2 R) (es_ftr [3; 4]%nat) us /\ length us = 1%nat /\ Forall (below (2 ^ gc_bits ex_gc)) us.
Proof. exact es_bandit. Qed.
