(** C63: property theorems about progressive validation by the train command. *)
From Coq Require Import List NArith ZArith Bool.
From Verif Require Import Base FloatOps FloatB32 Model_Hash Model_Features Model_Interactions Model_Weights Model_Loss Model_Explore Model_Coin Model_Types Model_Stack Model_Factory Model_Text
  Model_Metrics Model_Train Spec_Features Spec_Stack Spec_Text Spec_Metrics Spec_Progress
  Proof_StackProps Proof_TextChunk Proof_Metrics Proof_Train Proof_Progress.
Import ListNotations.

(** C63.  Whatever a run of the train command that finishes does with its recycled
    objects: its examples are the chunks of the file, each parsed on its own; the model
    has learned from them in order; the prediction for an example is made by the model
    that has learned from the examples before it only; the predictions file holds these
    predictions in order; and each row of the table holds the metrics over exactly the
    examples so far, the last row over all of them. *)
Theorem C63_train_progressive :
  forall (O : FOps) (H : hasher) (pf : str -> option O) (gc : gconfig) (c : rcfg O) (dbg : bool) R r
    (md : tmode) (names : list str) (p : period O) (seed nb : N) (ds : list (sfeats O)) (chunks : list str) st,
  ws_new H dbg gc c = Ok R -> reach dbg (projT2 R) r -> Forall pooled ds ->
  train H pf dbg md seed nb names p r ds chunks = Ok st ->
  exists exs : list (example O),
    Forall2 (fun chunk ex =>
       parse_chunk H pf dbg seed nb (td_in_feats (red_types r)) (td_in_label (red_types r)) [] chunk = Ok (fst ex, Some (snd ex)))
      chunks exs /\
    learned dbg r exs (t_red st) /\
    (tm_quiet md = false \/ tm_preds md = true ->
     exists (ps : list (prediction O)) (bs : list bool), progressive dbg r exs ps /\
       t_preds st = (if tm_preds md then ps else []) /\
       outputs dbg (mgr_new p (S (length names))) (length exs) = Ok bs /\
       Forall2 (row_after dbg (name_example :: names) (points_of exs ps))
         (answered 0 bs ++ (if tm_quiet md then [] else [length exs])) (mg_rows (t_mgr st))) /\
    (tm_quiet md = true -> tm_preds md = false -> t_preds st = [] /\ mg_rows (t_mgr st) = []).
Proof. exact (fun O H pf => train_progressive (O:=O) H pf). Qed.
Print Assumptions C63_train_progressive.

Example C63_example : exists R st, ws_new ex_hash false ex_gc ex_cfg = Ok R /\ reach false (projT2 R) (projT2 R) /\
  train ex_hash ex_pf false (mkMode false true) 0 4 [name_ips; name_parsed] (Additive 1) (projT2 R) [] [ex_chunk; ex_chunk] = Ok st.
Proof. exact ex_progress. Qed.

(** And nothing else can stop a run: when every chunk parses to a labelled example,
    every example can be predicted and learned from in turn, every metric takes the
    points and every row has values, the run finishes. *)
Theorem C63_train_complete :
  forall (O : FOps) (H : hasher) (pf : str -> option O) (gc : gconfig) (c : rcfg O) (dbg : bool) R r
    (md : tmode) (names : list str) (p : period O) (seed nb : N) (ds : list (sfeats O)) (chunks : list str)
    (exs : list (example O)) ps bs rows,
  ws_new H dbg gc c = Ok R -> reach dbg (projT2 R) r -> Forall pooled ds ->
  Forall2 (fun chunk ex =>
     parse_chunk H pf dbg seed nb (td_in_feats (red_types r)) (td_in_label (red_types r)) [] chunk = Ok (fst ex, Some (snd ex)))
    chunks exs ->
  progressive dbg r exs ps ->
  Forall (fun name => exists m0 m, get_metric name = Some m0 /\ add_points m0 (points_of exs ps) = Ok m) (name_example :: names) ->
  outputs dbg (mgr_new p (S (length names))) (length exs) = Ok bs ->
  Forall2 (row_after dbg (name_example :: names) (points_of exs ps)) (answered 0 bs ++ [length exs]) rows ->
  exists st, train H pf dbg md seed nb names p r ds chunks = Ok st.
Proof. exact (fun O H pf => train_complete (O:=O) H pf). Qed.
Print Assumptions C63_train_complete.

Example C63_complete_example : exists R (exs : list (example BF0)) ps bs rows,
  ws_new ex_hash false ex_gc ex_cfg = Ok R /\
  Forall2 (fun chunk ex =>
     parse_chunk ex_hash ex_pf false 0 4 (td_in_feats (red_types (projT2 R))) (td_in_label (red_types (projT2 R))) [] chunk =
       Ok (fst ex, Some (snd ex))) [ex_chunk; ex_chunk] exs /\
  progressive false (projT2 R) exs ps /\ length ps = 2%nat /\
  Forall (fun name => exists m0 m, get_metric name = Some m0 /\ add_points m0 (points_of exs ps) = Ok m)
    [name_example; name_ips; name_parsed] /\
  outputs false (mgr_new (Additive 1 : period BF0) 3) (length exs) = Ok bs /\
  Forall2 (row_after false [name_example; name_ips; name_parsed] (points_of exs ps)) (answered 0 bs ++ [length exs]) rows.
Proof. exact ex_complete. Qed.
