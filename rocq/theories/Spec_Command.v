(** What the statements about the train command talk about (C72, C73). *)
From Coq Require Import List NArith Bool.
From Verif Require Import Base FloatOps Model_Hash Model_Features Model_Types Model_Interactions Model_Weights Model_Loss Model_Explore Model_Coin
  Model_Stack Model_Factory Model_Text Model_Metrics Model_Train Model_Json Model_JsonTrain Model_Save Model_Command Spec_Stack Spec_Text.
Import ListNotations.
Open Scope N_scope.

(** The lines of a text, each with the newline it has. *)
Inductive full_lines : str -> list str -> Prop :=
| full_none : full_lines [] []
| full_last : forall l, l <> [] -> ~ In 10 l -> full_lines l [l]
| full_more : forall l rest ls, ~ In 10 l -> full_lines rest ls -> full_lines (l ++ 10 :: rest) ((l ++ [10]) :: ls).

(** How a text is cut into examples: the text format at blank lines for contextual
    bandits, otherwise one for each non-blank line; the JSON formats one for each line. *)
Definition pieces (fmt : format) (multi : bool) (text : str) (cs : list str) : Prop :=
  match fmt with
  | FmtText =>
      exists ls, lines_are text ls /\
        if multi then exists bs, blocks ls bs /\ Forall2 chunk_of bs cs
        else exists bs, non_blank ls bs /\ Forall2 trimmed bs cs
  | _ => full_lines text cs
  end.

(** A text that can be continued: every line ends with a newline, and where examples have
    several lines, the last line is blank. *)
Definition complete (text : str) : Prop := text = [] \/ exists u, text = u ++ [10].
Definition closed (fmt : format) (multi : bool) (text : str) : Prop :=
  complete text /\
  (fmt = FmtText -> multi = true -> text = [] \/ exists u w, complete u /\ blank w /\ ~ In 10 w /\ text = u ++ w ++ [10]).

Section S.
Context {O : FOps} (H : hasher) (dbg : bool).
(** The saved model of a workspace in use. *)
Definition known (m : model O) : Prop :=
  exists gc (c : rcfg O) R r, ws_new H dbg gc c = Ok R /\ reach dbg (projT2 R) r /\ m = saved gc r.
Definition source_ok (s : source O) : Prop := match s with FromConfig _ _ => True | FromModel m => known m end.
(** the kind of examples the source takes *)
Definition takes_multi (s : source O) (multi : bool) : Prop :=
  exists gc R, open_source H dbg s = Ok (gc, R) /\
    multi = is_multiline (td_in_feats (red_types (projT2 R))) (td_in_label (red_types (projT2 R))).
(** Training in several sessions, each from the model the one before saved, all with or
    all without a predictions file: the texts, all predictions, and the last model. *)
Inductive sessions (pf : str -> option O) (rd : str -> option (json O)) (al : alloc) (fmt : format) (preds : bool) :
  source O -> list str -> list (prediction O) -> source O -> Prop :=
| sessions_none : forall s, sessions pf rd al fmt preds s [] [] s
| sessions_more : forall s o text rep texts ps s', op_format o = fmt -> tm_preds (op_mode o) = preds ->
    train_command H pf rd al dbg o s text = Ok rep ->
    sessions pf rd al fmt preds (FromModel (rp_model rep)) texts ps s' ->
    sessions pf rd al fmt preds s (text :: texts) (rp_preds rep ++ ps) s'.
End S.
