(** How labels are written in the JSON format. *)
From Coq Require Import List NArith Bool.
From Verif Require Import Base FloatOps Model_Hash Model_Features Model_Types Model_Json.
Import ListNotations.

Section Spec.
Context {O : FOps}.

(** the first, and the last, entry of an object with a key *)
Definition first_entry (k : str) (v x : json O) : Prop :=
  exists l1 l2, v = JObj (l1 ++ (k, x) :: l2) /\ ~ In k (map fst l1).
Definition last_entry (k : str) (v x : json O) : Prop :=
  exists l1 l2, v = JObj (l1 ++ (k, x) :: l2) /\ ~ In k (map fst l2).
Definition no_entry (k : str) (v : json O) : Prop := forall l, v = JObj l -> ~ In k (map fst l).

(** The label of an example [v]: none if the member "label" is missing or null; a number
    (value, with weight 1), an object with members "value" and "weight", or a list of the
    two, for a simple label; an object with members "action", "cost" and "probability", or
    a list of the three, for a contextual bandit label.  A number alone is converted by way
    of f64, numbers in objects and lists directly.  There is no form for binary labels. *)
Inductive label_in : label_type -> json O -> option (label O) -> Prop :=
| li_missing : forall lt v, lt <> LTBinary -> no_entry s_label v -> label_in lt v None
| li_null : forall lt v, lt <> LTBinary -> first_entry s_label v JNull -> label_in lt v None
| li_number : forall v n, first_entry s_label v (JNum n) -> label_in LTSimple v (Some (LbSimple (jn_f64 n) f1))
| li_simple : forall v x a b, first_entry s_label v x -> last_entry s_value x (JNum a) -> last_entry s_weight x (JNum b) ->
    label_in LTSimple v (Some (LbSimple (jn_f32 a) (jn_f32 b)))
| li_simple_list : forall v a b, first_entry s_label v (JArr [JNum a; JNum b]) ->
    label_in LTSimple v (Some (LbSimple (jn_f32 a) (jn_f32 b)))
| li_cb : forall v x a b c i, first_entry s_label v x -> last_entry s_action x (JNum a) -> last_entry s_cost x (JNum b) ->
    last_entry s_probability x (JNum c) -> jn_u64 a = Some i ->
    label_in LTCb v (Some (LbCb i (jn_f32 b) (jn_f32 c)))
| li_cb_list : forall v a b c i, first_entry s_label v (JArr [JNum a; JNum b; JNum c]) -> jn_u64 a = Some i ->
    label_in LTCb v (Some (LbCb i (jn_f32 b) (jn_f32 c))).
End Spec.
