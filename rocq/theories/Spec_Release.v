(** Text data the train command accepts, stated without parser and learner. *)
From Coq Require Import List NArith.
From Verif Require Import Base FloatOps Model_Hash Model_Types Model_Text Model_Metrics Model_Stack Spec_Text.
Import ListNotations.
Open Scope N_scope.

(** A chunk one can train on, by label type; [mtr] says whether the mtr cost type is
    used.  Simple: a line of documented form with a label.  Contextual bandit: lines of
    documented form, exactly one action with a label, and for mtr a shared line first.
    There is no text form of binary labels. *)
Definition trainable {A} (pf : str -> option A) (lt : label_type) (mtr : bool) (chunk : str) : Prop :=
  match lt with
  | LTSimple =>
      exists initial segs ws s, cut 124 chunk (initial :: segs) /\ label_words initial ws /\
        simple_label pf ws (Some s) /\ Forall (seg_fine pf) segs
  | LTBinary => False
  | LTCb =>
      Forall (line_fine pf LTCb) (str_lines chunk) /\
      exists ms i c p, Forall2 (line_mark pf) (str_lines chunk) ms /\
        label_is (action_marks ms) (Some (i, c, p)) /\
        (mtr = true -> exists r, ms = MShared :: r)
  end.

(** Metrics that suit the workspace: mse needs simple labels, ips needs contextual bandit
    labels and probabilities.  (parsed_features is left out: its total must stay
    below 2^31.) *)
Definition metric_suits (t : tdesc) (name : str) : Prop :=
  name = name_example \/
  (name = name_mse /\ td_in_label t = LTSimple) \/
  (name = name_ips /\ td_in_label t = LTCb /\ td_out_pred t = PTProbs).
