(** C21: property theorems about types of stacks. *)
From Coq Require Import List NArith ZArith Bool Lia.
From Verif Require Import Base FloatOps FloatB32 Model_Hash Model_Features Model_Weights Model_Loss Model_Interactions
  Model_Types Model_Explore Model_Coin Model_Stack Model_Factory Spec_Features Spec_Stack Spec_Types Proof_StackProps Proof_Types.
Import ListNotations.

(** C21.  If a configuration of any nesting is accepted, then in every state the stack
    can get into, calls with the declared feature and label types never panic because of
    a value of the wrong type anywhere in the stack ([PType]), and predictions have the
    declared type. *)
Theorem C21_type_correct :
  forall (O : FOps) (H : hasher) (dbg : bool) (gc : gconfig) (c : rcfg O) R r f,
  ws_new H dbg gc c = Ok R -> reach dbg (projT2 R) r ->
  feat_type_of f = td_in_feats (any_types R) ->
  (ws_predict dbg r f <> Pn PType /\
   forall p f', ws_predict dbg r f = Ok (p, f') -> pred_type_of p = td_out_pred (any_types R)) /\
  (forall lb, label_type_of lb = td_in_label (any_types R) ->
   ws_learn dbg r f lb <> Pn PType /\
   ws_ptl dbg r f lb <> Pn PType /\
   forall p r' f', ws_ptl dbg r f lb = Ok (p, r', f') -> pred_type_of p = td_out_pred (any_types R)).
Proof. exact @type_correct. Qed.
Print Assumptions C21_type_correct.

Example C21_example :
  exists R, ws_new ex_hash false ex_gc ex_cfg = Ok R /\ feat_type_of ex_fts = td_in_feats (any_types R) /\
    label_type_of ex_lb = td_in_label (any_types R) /\ td_out_pred (any_types R) = PTProbs.
Proof.
  destruct ex_calls as (R & E & _). exists R. split; [exact E|].
  vm_compute in E. inversion E; subst. repeat split.
Qed.

(** C21.  Exactly the configurations that have a type (in the rules of Spec_Types), with
    a regressor that can be created, are accepted. *)
Theorem C21_accepted_iff_typed :
  forall (O : FOps) (H : hasher) (dbg : bool) (gc : gconfig) (c : rcfg O),
  (exists R, ws_new H dbg gc c = Ok R) <->
  (exists l f p, wt c l f p) /\ exists cfg co, base_cfg c = Some cfg /\ coin_new H dbg cfg gc 1 = Ok co.
Proof. exact accepted_iff. Qed.
Print Assumptions C21_accepted_iff_typed.
