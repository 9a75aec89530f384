(** C32, C33 and C34: property theorems about training with several threads. *)
From Coq Require Import List NArith Bool.
From Verif Require Import Base FloatOps FloatB32 Model_Hash Model_Features Model_Interactions Model_Weights Model_Loss Model_Explore Model_Coin
  Model_Types Model_Stack Model_Factory Model_Text Model_Metrics Model_Train Model_Pipeline Spec_Features Spec_Stack Spec_Text Spec_Pipeline
  Proof_StackProps Proof_TextChunk Proof_Metrics Proof_Train Proof_PipeTrain.
Import ListNotations.
Open Scope nat_scope.

(** C32.  At any point of any run, with any number of parser threads, queue size and
    recycled objects in the pool, the learner's state (model, predictions, metrics, progress table) is the one
    a single thread has after the first [j] chunks of the file. *)
Theorem C32_file_order :
  forall (O : FOps) (H : hasher) (pf : str -> option O) (dbg : bool) (md : tmode) (seed nb : N) (n : nat) (r : red O n)
    q rd_ok k pool (st : tstate O n) chunks p,
  Forall pooled pool ->
  train_run dbg md (text_parser H pf dbg seed nb r) (text_need r) n q rd_ok k pool st chunks p ->
  exists j, j <= length chunks /\
    one_thread dbg md (text_parser H pf dbg seed nb r) (text_need r) n (firstn j chunks) st = Ok (pi_st p).
Proof. exact @text_prefix. Qed.
Print Assumptions C32_file_order.

(** When the learner has left its loop, the state is the one after the whole file. *)
Theorem C32_same_as_one_thread :
  forall (O : FOps) (H : hasher) (pf : str -> option O) (dbg : bool) (md : tmode) (seed nb : N) (n : nat) (r : red O n)
    q rd_ok k pool (st : tstate O n) chunks p,
  Forall pooled pool ->
  train_run dbg md (text_parser H pf dbg seed nb r) (text_need r) n q rd_ok k pool st chunks p -> pi_learner p = LExit ->
  one_thread dbg md (text_parser H pf dbg seed nb r) (text_need r) n chunks st = Ok (pi_st p).
Proof. exact @text_final. Qed.
Print Assumptions C32_same_as_one_thread.

(** So the command ends like the command with one thread, whatever either pool holds. *)
Theorem C32_command :
  forall (O : FOps) H pf dbg md seed nb n (r : red O n) q rd_ok k pool names (pd : period O) ds st chunks p,
  Forall pooled pool -> Forall pooled ds -> train_start names pd r = Ok st ->
  train_run dbg md (text_parser H pf dbg seed nb r) (text_need r) n q rd_ok k pool st chunks p -> pi_learner p = LExit ->
  train H pf dbg md seed nb names pd r ds chunks = train_end dbg md (pi_st p).
Proof. exact @pipe_command. Qed.
Print Assumptions C32_command.

(** A run with two parser threads and three chunks that gets there. *)
Example C32_example : exists (R : anyred BF0) st p, ws_new ex_hash false ex_gc ex_cfg = Ok R /\
  train_start [] (Additive 1) (projT2 R) = Ok st /\
  train_run false (mkMode true true) (ex_parse (projT2 R)) (text_need (projT2 R)) _ 1 true 2 [] st [ex_chunk; ex_chunk; ex_chunk] p /\
  pi_learner p = LExit.
Proof. exact ex_parallel. Qed.

(** C33.  If a single thread gets through the chunks, no thread ever panics: in
    particular no assertion or unwrap of the hand-over cell fails. *)
Theorem C33_no_panic :
  forall (O : FOps) (H : hasher) (pf : str -> option O) (dbg : bool) (md : tmode) (seed nb : N) (n : nat) (r : red O n)
    q rd_ok k pool (st : tstate O n) chunks p sN,
  Forall pooled pool -> one_thread dbg md (text_parser H pf dbg seed nb r) (text_need r) n chunks st = Ok sN ->
  train_run dbg md (text_parser H pf dbg seed nb r) (text_need r) n q rd_ok k pool st chunks p ->
  pi_learner p <> LDead /\ forall i, ~ In (PDead i) (pi_par p).
Proof. exact @text_no_panic. Qed.
Print Assumptions C33_no_panic.

(** Some thread can move, or all are finished with the state of the single thread.  Any
    queue size, also 0 (rendezvous). *)
Theorem C33_progress :
  forall (O : FOps) (H : hasher) (pf : str -> option O) (dbg : bool) (md : tmode) (seed nb : N) (n : nat) (r : red O n)
    q rd_ok k pool (st : tstate O n) chunks p sN,
  0 < k -> Forall pooled pool -> one_thread dbg md (text_parser H pf dbg seed nb r) (text_need r) n chunks st = Ok sN ->
  train_run dbg md (text_parser H pf dbg seed nb r) (text_need r) n q rd_ok k pool st chunks p ->
  (exists p', train_step dbg md (text_parser H pf dbg seed nb r) (text_need r) n q rd_ok p p') \/
  (pi_inp p = (if rd_ok then IDone else IDead) /\ (forall x, In x (pi_par p) -> x = PExit) /\ pi_learner p = LExit /\ pi_st p = sN).
Proof. exact @text_progress. Qed.
Print Assumptions C33_progress.

(** No schedule goes on for ever.  (This needs nothing about the data.) *)
Theorem C33_no_endless_run :
  forall (O : FOps) (H : hasher) (pf : str -> option O) (dbg : bool) (md : tmode) (seed nb : N) (n : nat) (r : red O n)
    q rd_ok k pool (st : tstate O n) chunks p,
  Forall pooled pool -> train_run dbg md (text_parser H pf dbg seed nb r) (text_need r) n q rd_ok k pool st chunks p ->
  no_endless (train_step dbg md (text_parser H pf dbg seed nb r) (text_need r) n q rd_ok) p.
Proof. exact @text_stops. Qed.
Print Assumptions C33_no_endless_run.

(** Some schedule gets there. *)
Theorem C33_finishes :
  forall (O : FOps) (H : hasher) (pf : str -> option O) (dbg : bool) (md : tmode) (seed nb : N) (n : nat) (r : red O n)
    q rd_ok k pool (st : tstate O n) chunks sN,
  0 < k -> Forall pooled pool -> one_thread dbg md (text_parser H pf dbg seed nb r) (text_need r) n chunks st = Ok sN ->
  exists p, train_run dbg md (text_parser H pf dbg seed nb r) (text_need r) n q rd_ok k pool st chunks p /\
    pi_inp p = (if rd_ok then IDone else IDead) /\ (forall x, In x (pi_par p) -> x = PExit) /\ pi_learner p = LExit /\ pi_st p = sN.
Proof. exact @text_finishes. Qed.
Print Assumptions C33_finishes.

(** Data for which the hypothesis of the above holds. *)
Example C33_example : exists (R : anyred BF0) st sN, ws_new ex_hash false ex_gc ex_cfg = Ok R /\
  train_start [] (Additive 1) (projT2 R) = Ok st /\ ex_one (projT2 R) [ex_chunk; ex_chunk; ex_chunk] st = Ok sN.
Proof. exact ex_pipe. Qed.

(** C34 is false: there are data with a bad line for which no schedule, with any number
    of threads and queue size, ever ends. *)
Theorem C34_bad_line_refuted : exists (R : anyred BF0) st chunks c e, ws_new ex_hash false ex_gc ex_cfg = Ok R /\
  train_start [] (Additive 1) (projT2 R) = Ok st /\ In c chunks /\ ex_parse (projT2 R) [] c = Pn e /\
  forall q rd_ok k pool p, Forall pooled pool ->
    train_run false (mkMode true true) (ex_parse (projT2 R)) (text_need (projT2 R)) _ q rd_ok k pool st chunks p ->
    ~ all_ended p.
Proof. exact bad_line_hangs. Qed.
Print Assumptions C34_bad_line_refuted.

(** In general: if the chunks before are fine and the parser panics on chunk [i], the
    command never ends (nothing moves any more at some point, C33_no_endless_run). *)
Theorem C34_parser_panic_hangs :
  forall (O : FOps) (H : hasher) (pf : str -> option O) (dbg : bool) (md : tmode) (seed nb : N) (n : nat) (r : red O n)
    q rd_ok k pool (st : tstate O n) chunks p i s c,
  Forall pooled pool ->
  one_thread dbg md (text_parser H pf dbg seed nb r) (text_need r) n (firstn i chunks) st = Ok s ->
  nth_error chunks i = Some c -> is_pn (text_parser H pf dbg seed nb r [] c) = true ->
  train_run dbg md (text_parser H pf dbg seed nb r) (text_need r) n q rd_ok k pool st chunks p -> ~ all_ended p.
Proof. exact @text_panic_hangs. Qed.
Print Assumptions C34_parser_panic_hangs.

Example C34_parser_panic_example : exists (R : anyred BF0) st sN e, ws_new ex_hash false ex_gc ex_cfg = Ok R /\
  train_start [] (Additive 1) (projT2 R) = Ok st /\ ex_one (projT2 R) (firstn 1 [ex_chunk; ex_bar]) st = Ok sN /\
  ex_parse (projT2 R) [] ex_bar = Pn e.
Proof. exact ex_hang. Qed.

(** If chunk [i] is the first that cannot be parsed or learnt from, and more than
    [q] chunks come after it, the command never ends either. *)
Theorem C34_error_hangs :
  forall (O : FOps) (H : hasher) (pf : str -> option O) (dbg : bool) (md : tmode) (seed nb : N) (n : nat) (r : red O n)
    q rd_ok k pool (st : tstate O n) chunks p i s c,
  Forall pooled pool ->
  one_thread dbg md (text_parser H pf dbg seed nb r) (text_need r) n (firstn i chunks) st = Ok s ->
  nth_error chunks i = Some c -> is_ok (one_thread dbg md (text_parser H pf dbg seed nb r) (text_need r) n [c] s) = false ->
  S i + q < length chunks ->
  train_run dbg md (text_parser H pf dbg seed nb r) (text_need r) n q rd_ok k pool st chunks p -> ~ all_ended p.
Proof. exact @text_error_hangs. Qed.
Print Assumptions C34_error_hangs.

(** If at most [q] chunks come after it, and the parser panics on no chunk, the
    command ends with the panic of the learner, in the state before that chunk. *)
Theorem C34_error_ends :
  forall (O : FOps) (H : hasher) (pf : str -> option O) (dbg : bool) (md : tmode) (seed nb : N) (n : nat) (r : red O n)
    q rd_ok k pool (st : tstate O n) chunks p i s c,
  0 < k -> Forall pooled pool ->
  one_thread dbg md (text_parser H pf dbg seed nb r) (text_need r) n (firstn i chunks) st = Ok s ->
  nth_error chunks i = Some c -> is_ok (one_thread dbg md (text_parser H pf dbg seed nb r) (text_need r) n [c] s) = false ->
  (forall d, In d chunks -> is_pn (text_parser H pf dbg seed nb r [] d) = false) ->
  length chunks <= S i + q ->
  train_run dbg md (text_parser H pf dbg seed nb r) (text_need r) n q rd_ok k pool st chunks p ->
  (exists p', train_step dbg md (text_parser H pf dbg seed nb r) (text_need r) n q rd_ok p p') \/
  (all_ended p /\ pi_learner p = LDead /\ pi_st p = s).
Proof. exact @text_error_ends. Qed.
Print Assumptions C34_error_ends.

(** Data for the last two theorems ([i] is 1; for the first of them add more chunks). *)
Example C34_error_example : exists (R : anyred BF0) st sN x e, ws_new ex_hash false ex_gc ex_cfg = Ok R /\
  train_start [] (Additive 1) (projT2 R) = Ok st /\ ex_one (projT2 R) (firstn 1 [ex_chunk; ex_unlabelled]) st = Ok sN /\
  ex_parse (projT2 R) [] ex_unlabelled = Ok x /\
  (forall d, In d [ex_chunk; ex_unlabelled] -> is_pn (ex_parse (projT2 R) [] d) = false) /\
  ex_one (projT2 R) [ex_unlabelled] sN = Pn e.
Proof. exact ex_learn_panics. Qed.
