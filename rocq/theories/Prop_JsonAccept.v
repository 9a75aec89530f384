(** C86: property theorems: which JSON data the train command accepts. *)
From Coq Require Import List NArith Bool.
From Verif Require Import Base FloatOps FloatB32 Model_Hash Model_Features Model_Types Model_Interactions Model_Weights Model_Loss Model_Explore Model_Coin
  Model_Stack Model_Factory Model_Text Model_Metrics Model_Train Model_Json Model_JsonTrain Model_Save Model_Command
  Proof_FloatOrder Spec_Stack Spec_Total Spec_Release Spec_Json Spec_JsonLabel Spec_Command Spec_Formats Spec_JsonAccept Proof_StackProps
  Proof_TextRead Proof_Release Proof_CommandEx Proof_FormatsEx Proof_JsonAccept Proof_JsonAcceptEx.
Import ListNotations.
Open Scope N_scope.

(** C86.  Release build, binary32, any stack without the element-wise reduction, any state
    reached by training, JSON or decision service data in which no namespace is a list of
    strings.  A quiet run of the train command finishes if the format suits the labels of
    the stack and one can train on every line, and panics otherwise. *)
Theorem C86_quiet_run :
  forall e l q, let O := BF e l q in
  forall (H : hasher) (pf : str -> option O) (rd : str -> option (json O)) (al : alloc) gc (c : rcfg O) R r fmt names (p : period O) text cs,
  gc_bits gc < 32 -> ws_new H false gc c = Ok R -> reach false (projT2 R) r -> uses_elem (projT2 R) = false ->
  fmt <> FmtText -> Forall (fun nm => @get_metric O nm <> None) names ->
  full_lines text cs -> Forall (no_string_lists rd fmt (td_in_feats (red_types (projT2 R)))) cs ->
  let run := train_from H pf rd al false (mkOpts fmt (mkMode true false) names p) gc r text in
  let fine := (fmt = FmtDs -> td_in_label (red_types (projT2 R)) = LTCb) /\
              Forall (line_trains H (gc_seed gc) rd fmt (td_in_label (red_types (projT2 R))) (uses_mtr (projT2 R))) cs in
  (fine -> exists rep, run = Ok rep) /\ (~ fine -> exists e, run = Pn e).
Proof. exact (fun e l q => json_quiet_cases (BF_ford e l q)). Qed.
Print Assumptions C86_quiet_run.

(** With progress output or a predictions file, for stacks without softmax and SquareCB
    and metrics that suit the workspace: the run finishes exactly if one can show every
    line and, unless it is quiet, there is at least one line. *)
Theorem C86_run_with_output :
  forall e l q, let O := BF e l q in
  forall (H : hasher) (pf : str -> option O) (rd : str -> option (json O)) (al : alloc) gc (c : rcfg O) R r fmt md names (p : period O) text cs,
  gc_bits gc < 32 -> ws_new H false gc c = Ok R -> reach false (projT2 R) r -> uses_elem (projT2 R) = false ->
  uses_weighted (projT2 R) = false -> fmt <> FmtText -> Forall (metric_suits (red_types (projT2 R))) names ->
  tm_quiet md = false \/ tm_preds md = true ->
  full_lines text cs -> Forall (no_string_lists rd fmt (td_in_feats (red_types (projT2 R)))) cs ->
  ((exists rep, train_from H pf rd al false (mkOpts fmt md names p) gc r text = Ok rep) <->
   (fmt = FmtDs -> td_in_label (red_types (projT2 R)) = LTCb) /\
   Forall (line_shows H (gc_seed gc) rd fmt (red_types (projT2 R)) (uses_mtr (projT2 R)) names) cs /\
   (tm_quiet md = false -> cs <> [])).
Proof. exact (fun e l q => json_output_iff (BF_ford e l q)). Qed.
Print Assumptions C86_run_with_output.

(** A stack with the default cost type and two lines in each format; a line without shared
    features whose label names a missing action is refused by it, but would be accepted
    with another cost type. *)
Example C86_example : forall fmt, fmt <> FmtText -> exists R, ws_new ex_hash false ex_gc mtr_greedy_cfg = Ok R /\ gc_bits ex_gc < 32 /\
  uses_elem (projT2 R) = false /\ uses_weighted (projT2 R) = false /\ uses_mtr (projT2 R) = true /\ td_in_label (red_types (projT2 R)) = LTCb /\
  Forall (metric_suits (red_types (projT2 R))) [name_ips; name_example] /\
  full_lines (fx_text fmt) (fx_pieces fmt) /\
  Forall (no_string_lists jx_rd fmt (td_in_feats (red_types (projT2 R)))) (fx_pieces fmt) /\
  Forall (line_shows ex_hash 0 jx_rd fmt (red_types (projT2 R)) true [name_ips; name_example]) (fx_pieces fmt) /\
  ~ line_trains ex_hash 0 jx_rd fmt LTCb true [51] /\ line_trains ex_hash 0 jx_rd FmtJson LTCb false [51].
Proof. exact jx_accept. Qed.
