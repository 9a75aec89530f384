(** C38, and C03 and C22 again: property theorems about training. *)
From Coq Require Import List NArith ZArith Bool.
From Verif Require Import Base FloatOps FloatB32 Model_Hash Model_Features Model_Interactions Model_Weights Model_Loss Model_Explore Model_Coin Model_Types Model_Stack Model_Factory Model_Text
  Model_Metrics Model_Train Spec_Features Spec_Stack Spec_Text Proof_StackProps Proof_TextChunk Proof_Metrics Proof_Train.
Import ListNotations.

(** C38.  Any run of the train command that finishes, with whatever progress output,
    metrics, predictions file and (recycled) pool objects: the quiet run without
    predictions file on the same data finishes too and ends with the same model.  Nothing
    is assumed about the data. *)
Theorem C38_quiet_same_model :
  forall (O : FOps) (H : hasher) (pf : str -> option O) (gc : gconfig) (c : rcfg O) (dbg : bool) R r
    (md : tmode) (names names' : list str) (p p' : period O) (seed nb : N) (ds es : list (sfeats O)) (chunks : list str) st,
  ws_new H dbg gc c = Ok R -> reach dbg (projT2 R) r ->
  Forall pooled ds -> Forall pooled es -> Forall (fun nm => @get_metric O nm <> None) names' ->
  train H pf dbg md seed nb names p r ds chunks = Ok st ->
  exists st', train H pf dbg (mkMode true false) seed nb names' p' r es chunks = Ok st' /\
    t_red st' = t_red st /\ t_preds st' = [].
Proof. exact @quiet_same_model. Qed.
Print Assumptions C38_quiet_same_model.

(** So any two runs that finish end with the same model. *)
Theorem C38_all_modes_same_model :
  forall (O : FOps) (H : hasher) (pf : str -> option O) (gc : gconfig) (c : rcfg O) (dbg : bool) R r
    (md md' : tmode) (names names' : list str) (p p' : period O) (seed nb : N) (ds es : list (sfeats O)) (chunks : list str) st st',
  ws_new H dbg gc c = Ok R -> reach dbg (projT2 R) r ->
  Forall pooled ds -> Forall pooled es ->
  train H pf dbg md seed nb names p r ds chunks = Ok st ->
  train H pf dbg md' seed nb names' p' r es chunks = Ok st' ->
  t_red st = t_red st'.
Proof. exact @all_modes_same_model. Qed.
Print Assumptions C38_all_modes_same_model.

(** A data set with an empty namespace in an action that the shared features have too. *)
Example C38_example :
  exists R, ws_new ex_hash false ex_gc ex_cfg = Ok R /\
    ok_of (train ex_hash ex_pf false (mkMode false true) 0 4 [name_ips; name_parsed] (Additive 1) (projT2 R) []
      [ex_chunk; ex_chunk]) = true /\
    Forall (fun nm => @get_metric BF0 nm <> None) [name_ips; name_parsed].
Proof. exact ex_train. Qed.

(** The other way round it is false: a quiet run may finish where the same run with
    output panics. *)
Theorem C38_converse_refuted :
  exists (R : anyred BF0) (chunks : list str) st, ws_new ex_hash false ex_gc ex_cfg = Ok R /\
    train ex_hash ex_pf false (mkMode true false) 0 4 [] (Additive 1) (projT2 R) [] chunks = Ok st /\
    exists e, train ex_hash ex_pf false (mkMode false false) 0 4 [] (Additive 1) (projT2 R) [] chunks = Pn e.
Proof. exact quiet_converse_refuted. Qed.
Print Assumptions C38_converse_refuted.

(** C03 for whole runs: the objects in the pool at the start make no difference to
    anything: same outcome, model, predictions, metrics and table. *)
Theorem C03_train_pool :
  forall (O : FOps) (H : hasher) (pf : str -> option O) (dbg : bool) (md : tmode) (seed nb : N) (names : list str)
    (p : period O) (n : nat) (r : red O n) (ds es : list (sfeats O)) (chunks : list str),
  Forall pooled ds -> Forall pooled es ->
  train H pf dbg md seed nb names p r ds chunks = train H pf dbg md seed nb names p r es chunks.
Proof. exact @train_pool. Qed.
Print Assumptions C03_train_pool.

Example C03_train_pool_satisfiable :
  Forall pooled [sf_clear (ex_store 0%nat); sf_clear (ex_store 1%nat)] /\ sf_clear (ex_store 1%nat) <> sf_new.
Proof.
  split; [|discriminate]. constructor; [right; exists (ex_store 0%nat); auto using ex_built|].
  constructor; [right; exists (ex_store 1%nat); auto using ex_built|constructor].
Qed.

(** C22 for contextual bandit features with any empty namespaces and for any simple
    features, in both builds. *)
Theorem C22_predict_then_learn_loose :
  forall (O : FOps) (H : hasher) (dbg : bool) (gc : gconfig) (c : rcfg O) R r f lb,
  ws_new H dbg gc c = Ok R -> reach dbg (projT2 R) r -> built_fts f -> loose f ->
  (forall p r' f', ws_ptl dbg r f lb = Ok (p, r', f') ->
     exists f1 f2, ws_predict dbg r f = Ok (p, f1) /\ ws_learn dbg r f lb = Ok (r', f2)) /\
  (forall p f1 r' f2, ws_predict dbg r f = Ok (p, f1) -> ws_learn dbg r f lb = Ok (r', f2) ->
     exists f', ws_ptl dbg r f lb = Ok (p, r', f')).
Proof. exact @ptl_is_predict_learn_loose. Qed.
Print Assumptions C22_predict_then_learn_loose.

(** The features on which C02 fails. *)
Example C22_loose_example :
  built_fts ex_fts_empty /\ loose ex_fts_empty /\
  exists R, ws_new ex_hash false ex_gc ex_cfg = Ok R /\
    ok_of (ws_ptl false (projT2 R) ex_fts_empty ex_lb) = true.
Proof. exact ex_loose. Qed.
