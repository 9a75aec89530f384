(** C58: property theorems: which text data the train command accepts. *)
From Coq Require Import List NArith Bool.
From Verif Require Import Base FloatOps FloatB32 Model_Hash Model_Features Model_Interactions Model_Weights Model_Loss Model_Explore Model_Coin Model_Types Model_Stack Model_Factory Model_Text
  Model_Metrics Model_Train Proof_FloatOrder Spec_Stack Spec_Text Spec_Total Spec_Release Proof_StackProps Proof_TextChunk Proof_Train Proof_Release.
Import ListNotations.
Open Scope N_scope.

(** C58.  Release build, binary32, any stack without the element-wise reduction, any state
    reached by training, text data parsed with the hash seed and number of bits of the
    workspace, whatever recycled objects the pool holds.  A quiet run of the train command
    finishes if every chunk is [trainable] and panics otherwise. *)
Theorem C58_quiet_run :
  forall e l q, let O := BF e l q in
  forall (H : hasher) (pf : str -> option O) gc (c : rcfg O) R r names (p : period O) ds chunks,
  ws_new H false gc c = Ok R -> reach false (projT2 R) r -> uses_elem (projT2 R) = false ->
  Forall pooled ds -> Forall (fun nm => @get_metric O nm <> None) names ->
  let run := train H pf false (mkMode true false) (gc_seed gc) (gc_bits gc) names p r ds chunks in
  let fine := Forall (trainable pf (td_in_label (red_types (projT2 R))) (uses_mtr (projT2 R))) chunks in
  (fine -> exists st, run = Ok st) /\ (~ fine -> exists e, run = Pn e).
Proof. exact (fun e l q => train_quiet_cases (BF_ford e l q)). Qed.
Print Assumptions C58_quiet_run.

(** With progress output or a predictions file, for stacks without softmax and SquareCB
    and metrics that suit the workspace: the run finishes exactly if every chunk is
    trainable and, unless it is quiet, there is at least one chunk. *)
Theorem C58_run_with_output :
  forall e l q, let O := BF e l q in
  forall (H : hasher) (pf : str -> option O) gc (c : rcfg O) R r md names (p : period O) ds chunks,
  ws_new H false gc c = Ok R -> reach false (projT2 R) r -> uses_elem (projT2 R) = false -> uses_weighted (projT2 R) = false ->
  Forall pooled ds -> Forall (metric_suits (red_types (projT2 R))) names ->
  ((exists st, train H pf false md (gc_seed gc) (gc_bits gc) names p r ds chunks = Ok st) <->
   Forall (trainable pf (td_in_label (red_types (projT2 R))) (uses_mtr (projT2 R))) chunks /\ (tm_quiet md = false -> chunks <> [])).
Proof. exact (fun e l q => train_output_iff (BF_ford e l q)). Qed.
Print Assumptions C58_run_with_output.

(** A stack with the default cost type; a chunk with a shared line, an action with a label
    and one without; a chunk without label. *)
Example C58_example : exists R, ws_new ex_hash false ex_gc mtr_greedy_cfg = Ok R /\ uses_elem (projT2 R) = false /\
  uses_weighted (projT2 R) = false /\ uses_mtr (projT2 R) = true /\ td_in_label (red_types (projT2 R)) = LTCb /\
  trainable ex_pf LTCb true ex_chunk /\ ~ trainable ex_pf LTCb true no_label_chunk /\
  Forall (metric_suits (red_types (projT2 R))) [name_ips; name_example].
Proof. exact ex_trainable. Qed.
