(** Typing of configurations, written down independently of the [create] functions:
    label, feature and prediction type of a configuration. *)
From Coq Require Import List NArith ZArith Bool.
From Verif Require Import Base FloatOps Model_Hash Model_Features Model_Weights Model_Interactions
  Model_Types Model_Coin Model_Stack Model_Factory.
Import ListNotations.

Section Spec.
Context {O : FOps}.

Definition not_ips (c : rcfg O) : Prop := match c with CCbAdf Ips _ => False | _ => True end.

Inductive wt : rcfg O -> label_type -> feat_type -> pred_type -> Prop :=
| wt_coin : forall cfg, wt (CCoin cfg) LTSimple FTSimple PTScalar
| wt_binary : forall c f, wt c LTSimple f PTScalar -> wt (CBinary c) LTBinary f PTBinary
| wt_cb : forall ty c, wt c LTSimple FTSimple PTScalar -> wt (CCbAdf ty c) LTCb FTCb PTScores
| wt_greedy : forall e c, wt c LTCb FTCb PTScores -> wt (CGreedy e c) LTCb FTCb PTProbs
| wt_softmax : forall u l c, wt c LTCb FTCb PTScores -> wt (CSoftmax u l c) LTCb FTCb PTProbs
| wt_square : forall u g x c, not_ips c -> wt c LTCb FTCb PTScores -> wt (CSquareCb u g x c) LTCb FTCb PTProbs
| wt_elem : forall a b k c l p, wt c l FTSimple p -> wt (CElem a b k c) l FTSimple p
| wt_debug : forall c l f p, wt c l f p -> wt (CDebug c) l f p.

(** the settings of the regressor at the bottom *)
Fixpoint base_cfg (c : rcfg O) : option (coin_config O) :=
  match c with
  | CCoin cfg => Some cfg
  | CBinary c | CCbAdf _ c | CGreedy _ c | CSoftmax _ _ c | CSquareCb _ _ _ c | CElem _ _ _ c | CDebug c => base_cfg c
  | CBad _ => None
  end.

End Spec.
