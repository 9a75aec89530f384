(** C95: property theorems: debug builds and release builds.  [agree d r]: unless [d] is a
    panic, [r] is the same outcome.  [true] is the debug build, [false] the release
    build. *)
From Coq Require Import List NArith Bool.
From Verif Require Import Base FloatOps FloatB32 Model_Hash Model_Features Model_Interactions Model_Types Model_Coin Model_Stack Model_Factory Model_Text
  Model_Metrics Model_InvHash Model_Train Model_Json Model_JsonTrain Model_Save Model_Config Model_Export Model_Cli Model_Pipeline Spec_Builds Proof_StackProps
  Proof_TextChunk Proof_Train Proof_JsonTrain Proof_PythonEx Proof_CommandEx Proof_Builds Proof_BuildsData Proof_BuildsPy Proof_BuildsPipe Proof_BuildsEx.
From Verif Require Model_Python.
From Verif Require Import Model_Command.
Import ListNotations.
Open Scope N_scope.

(** C95.  Workspaces: making one, predicting, learning, both, and the sensitivity. *)
Theorem C95_workspace : forall O : FOps,
  (forall H gc (c : rcfg O), agree (ws_new H true gc c) (ws_new H false gc c)) /\
  (forall n (r : red O n) f, agree (ws_predict true r f) (ws_predict false r f)) /\
  (forall n (r : red O n) f l, agree (ws_learn true r f l) (ws_learn false r f l)) /\
  (forall n (r : red O n) f l, agree (ws_ptl true r f l) (ws_ptl false r f l)) /\
  (forall n (r : red O n) f, agree (sensitivity true n r f) (sensitivity false n r f)).
Proof. intros O. exact (conj ag_wnew (conj ag_wpredict (conj ag_wlearn (conj ag_wptl ag_sens)))). Qed.
Print Assumptions C95_workspace.

(** The three data formats, the names of features and the table of names. *)
Theorem C95_data : forall (O : FOps) H seed nb,
  (forall (pf : str -> option O) ft lt ds s, agree (parse_chunk H pf true seed nb ft lt ds s) (parse_chunk H pf false seed nb ft lt ds s)) /\
  (forall al rd ft lt ds s, agree (json_example O H true seed nb al rd ft lt ds s) (json_example O H false seed nb al rd ft lt ds s)) /\
  (forall rd ds s, agree (ds_chunk O H true seed nb rd ds s) (ds_chunk O H false seed nb rd ds s)) /\
  (forall (pf : str -> option O) m s, agree (extract_feature_names pf true m s) (extract_feature_names pf false m s)) /\
  (forall dn l t, agree (inv_add_all H true seed nb dn l t) (inv_add_all H false seed nb dn l t)).
Proof.
  intros O H seed nb.
  exact (conj (fun pf => ag_chunk H pf seed nb) (conj (ag_jexample H seed nb) (conj (ag_dschunk H seed nb) (conj (fun pf => ag_names pf) (ag_invall H seed nb))))).
Qed.
Print Assumptions C95_data.

(** The train command: any format, options, configuration or saved model, and data: the
    same predictions, table and saved model. *)
Theorem C95_train_command :
  forall (O : FOps) H pf rd al (o : options O) s text,
  agree (train_command H pf rd al true o s text) (train_command H pf rd al false o s text).
Proof. exact (@ag_command). Qed.
Print Assumptions C95_train_command.

(** The train command with parser threads: what a debug build can reach without a thread
    that panicked, a release build can reach. *)
Theorem C95_threads :
  forall (O : FOps) H pf rd al (fmt : format) gc n (r : red O n) pn pn' md q rd_ok k pool (st : tstate O n) chunks p,
  get_parser H pf rd al true fmt gc r = Ok pn -> get_parser H pf rd al false fmt gc r = Ok pn' ->
  train_run true md (fst pn) (snd pn) n q rd_ok k pool st chunks p ->
  (forall i, ~ In (PDead i) (pi_par p)) -> pi_learner p <> LDead ->
  train_run false md (fst pn') (snd pn') n q rd_ok k pool st chunks p.
Proof. exact (@threads_main). Qed.
Print Assumptions C95_threads.

(** Configuration files, and the export and import commands, whatever the order in which
    a hash map is visited. *)
Theorem C95_models : forall O : FOps,
  (forall H (v : json O), agree (load H true v) (load H false v)) /\
  (forall ord ex (m : model O), agree (export_command true ord ex m) (export_command false ord ex m)) /\
  (forall ord (v : json O), agree (import_command true ord v) (import_command false ord v)).
Proof. intros O. exact (conj ag_load (conj ag_cexport ag_cimport)). Qed.
Print Assumptions C95_models.

(** Programs that use the Python module: if no call panics in a debug build, the results
    and the state left are the same in a release build. *)
Theorem C95_python :
  forall (O : FOps) H (pf : str -> option O) rd ops st,
  (forall p, ~ In (Model_Python.RPanic p) (fst (Model_Python.py_run H true pf rd ops st))) ->
  Model_Python.py_run H false pf rd ops st = Model_Python.py_run H true pf rd ops st.
Proof. exact (@pyrun_same). Qed.
Print Assumptions C95_python.

(** The converse is false.  A release build may return where a debug build panics: a data
    file with an action whose namespace has no features, and one with two unnamed features
    in a namespace whose hash is large. *)
Theorem C95_converse_refuted :
  (exists rep, train_command ex_hash ex_pf cx_rd ex_al false (cx_opts FmtText) cx_src (cx_text FmtText) = Ok rep /\
     train_command ex_hash ex_pf cx_rd ex_al true (cx_opts FmtText) cx_src (cx_text FmtText) = Pn PAssert) /\
  (exists rep, train_command big_hash ex_pf cx_rd ex_al false cx_simple_opts cx_simple anon_line = Ok rep /\
     train_command big_hash ex_pf cx_rd ex_al true cx_simple_opts cx_simple anon_line = Pn POverflow).
Proof. exact (conj release_only_empty release_only). Qed.
Print Assumptions C95_converse_refuted.

(** Debug builds do return: the train command on two examples in each format, threads, and
    a Python program. *)
Example C95_train_example : forall fmt, exists rep,
  train_command ex_hash ex_pf cx_rd ex_al true (cx_opts fmt) cx_src (dbg_text fmt ++ dbg_text fmt) = Ok rep /\
  length (rp_preds rep) = 2%nat /\ length (rp_rows rep) = 3%nat.
Proof. exact debug_runs. Qed.
Example C95_threads_example : exists (R : anyred BF0) st p, ws_new ex_hash true ex_gc ex_cfg = Ok R /\
  train_start [] (Additive 1) (projT2 R) = Ok st /\
  train_run true (mkMode true true) (text_parser ex_hash ex_pf true 0 4 (projT2 R)) (text_need (projT2 R)) _ 1 true 2 [] st
    [dbg_chunk; dbg_chunk; dbg_chunk] p /\
  (forall i, ~ In (PDead i) (pi_par p)) /\ pi_learner p = LExit.
Proof. exact debug_threads. Qed.
Example C95_python_example : map see (fst (Model_Python.py_run ex_hash true ex_pf ex_rd dbg_prog Model_Python.py_start)) =
    [Object 0; Object 1; Parsed 2 (Some 3%nat); Nothing; Parsed 4 (Some 5%nat); Nothing; Object 6; Nothing; WrongType].
Proof. exact debug_python. Qed.
