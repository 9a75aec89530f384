(** JSON and decision service JSON data the train command accepts, stated without parser
    and learner (C86). *)
From Coq Require Import List NArith.
From Verif Require Import Base FloatOps Model_Hash Model_Features Model_Types Model_Interactions Model_Weights Model_Loss Model_Explore Model_Coin Model_Stack Model_Text Model_Metrics Model_Json Model_Command Spec_Text Spec_Json Spec_JsonLabel Spec_Formats.
Import ListNotations.
Open Scope N_scope.

Section Spec.
Context {O : FOps} (H : hasher) (seed : N) (rd : str -> option (json O)).

(** an object with features in the JSON format (Spec_Json): its indices fit *)
Definition feature_object (v : json O) : Prop := exists nss, jdoc H seed v nss /\ jfits H seed v.
(** a context or an action in the decision service format (Spec_Json) *)
Definition context_object (v : json O) : Prop := ds_fine str_space v /\ ds_root v.

(** [v] is a labelled example for label type [lt]: whether there are shared features, how
    many actions there are, which of them the label names (without actions: no, 0 and 0).
    There is no form of binary labels. *)
Inductive labelled (v : json O) : format -> label_type -> bool -> nat -> N -> Prop :=
| lx_simple : forall x lb, first_entry s_features v x -> feature_object x -> label_in LTSimple v (Some lb) ->
    labelled v FmtJson LTSimple false 0 0
| lx_no_shared : forall l i c p, no_entry str_shared v \/ first_entry str_shared v JNull ->
    first_entry s_actions v (JArr l) -> Forall feature_object l -> label_in LTCb v (Some (LbCb i c p)) ->
    labelled v FmtJson LTCb false (length l) i
| lx_shared : forall x l i c p, first_entry str_shared v x -> feature_object x ->
    first_entry s_actions v (JArr l) -> Forall feature_object l -> label_in LTCb v (Some (LbCb i c p)) ->
    labelled v FmtJson LTCb true (length l) i
| lx_service : forall x l i c p, first_entry s_c v x -> context_object x ->
    first_entry s_multi x (JArr l) -> Forall context_object l -> ds_marks v (Some (i, c, p)) ->
    labelled v FmtDs LTCb true (length l) i.

(** A line one can train on; the mtr cost type needs shared features and an existing
    action. *)
Definition line_trains (fmt : format) (lt : label_type) (mtr : bool) (c : str) : Prop :=
  exists v sh k i, rd c = Some v /\ labelled v fmt lt sh k i /\
    (mtr = true -> sh = true /\ (N.to_nat i < k)%nat).
(** If predictions are made: probabilities need an action, and the metric ips needs the
    action to exist. *)
Definition line_shows (fmt : format) (t : tdesc) (mtr : bool) (names : list str) (c : str) : Prop :=
  exists v sh k i, rd c = Some v /\ labelled v fmt (td_in_label t) sh k i /\
    (mtr = true -> sh = true /\ (N.to_nat i < k)%nat) /\
    (td_out_pred t = PTProbs -> k <> 0%nat) /\ (In name_ips names -> (N.to_nat i < k)%nat).
(** no lists of strings as namespaces (see C42) *)
Definition no_string_lists (fmt : format) (ft : feat_type) (c : str) : Prop :=
  fmt = FmtJson -> forall v, rd c = Some v -> Forall no_lists (json_parts ft v).
End Spec.
