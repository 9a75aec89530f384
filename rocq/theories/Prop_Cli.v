(** C76, C77: property theorems about the text of the command-line program. *)
From Coq Require Import String List NArith ZArith Bool Floats.SpecFloat.
From Verif Require Import Base FloatOps FloatB32 Model_Hash Model_Features Model_Interactions Model_Weights Model_Loss Model_Explore Model_Coin Model_Types
  Model_Stack Model_Factory Model_Text Model_Metrics Model_Train Model_Json Model_Config Model_JsonTrain Model_Save Model_Export Model_Command Model_Cli
  Spec_Features Spec_Stack Spec_Text Spec_Metrics Spec_Progress Spec_Save Spec_Export Spec_Command Spec_Cli
  Proof_StackProps Proof_TextChunk Proof_Train Proof_JsonTrain Proof_ExportReach Proof_CommandEx Proof_Cli Proof_CliRuns Proof_CliEx.
Import ListNotations.
Open Scope N_scope.

(** C76.  The progress option takes a number, + and a number, or * and a floating-point
    number, and nothing else; numbers in decimal, below 2^32. *)
Theorem C76_progress :
  forall A (lower : str -> str) (pf : str -> option A) (s : str) p,
  parse_period lower pf s = Some p <-> period_text pf (lower s) p.
Proof. exact period_iff. Qed.
Print Assumptions C76_progress.

Example C76_progress_example : forall A (pf : str -> option A),
  period_text pf (lit "+10") (Additive 10) /\ period_text pf (lit "007") (Additive 7) /\
  forall p, ~ period_text pf [] p /\ ~ period_text pf (lit "4294967296") p.
Proof. intros A pf. destruct (ci_period A pf). auto using ci_no_period. Qed.

(** The predictions file has one line for each example of the data file. *)
Theorem C76_lines :
  forall (e l : b32 -> b32) (p : b32 -> b32 -> b32) (H : hasher) (pf : str -> option (BF e l p)) rd (al : alloc) (dbg : bool)
    (pr : BF e l p -> str) s multi (o : options (BF e l p)) (text : str) rep (cs : list str),
  prints pr -> source_ok H dbg s -> takes_multi H dbg s multi -> tm_preds (op_mode o) = true -> pieces (op_format o) multi text cs ->
  train_command H pf rd al dbg o s text = Ok rep ->
  exists ls, full_lines (predictions_file pr (rp_preds rep)) ls /\ length ls = length cs.
Proof. exact run_lines. Qed.
Print Assumptions C76_lines.

(** It can be read again: two runs that make the same kind of predictions, all numbers of
    them finite, and write the same file have made the same predictions. *)
Theorem C76_readable :
  forall (e l : b32 -> b32) (p : b32 -> b32 -> b32) (H : hasher) (pf : str -> option (BF e l p)) rd (al : alloc) (dbg : bool)
    (pr : BF e l p -> str) s s' t (o o' : options (BF e l p)) (text text' : str) rep rep',
  prints pr -> source_ok H dbg s -> source_ok H dbg s' -> predicts H dbg s t -> predicts H dbg s' t ->
  train_command H pf rd al dbg o s text = Ok rep -> train_command H pf rd al dbg o' s' text' = Ok rep' ->
  Forall finite_pred (rp_preds rep) -> Forall finite_pred (rp_preds rep') ->
  predictions_file pr (rp_preds rep) = predictions_file pr (rp_preds rep') -> rp_preds rep = rp_preds rep'.
Proof. exact run_readable. Qed.
Print Assumptions C76_readable.

Example C76_readable_example : prints ci_pr /\ source_ok ex_hash false cx_src /\ predicts ex_hash false cx_src PTProbs /\
  takes_multi ex_hash false cx_src true /\ pieces FmtJson true (cx_text FmtJson ++ cx_text FmtJson) [[49; 10]; [49; 10]] /\
  forall fmt, exists rep, train_command ex_hash ex_pf cx_rd ex_al false (ci_quiet fmt) cx_src (cx_text fmt ++ cx_text fmt) = Ok rep /\
    Forall finite_pred (rp_preds rep) /\ length (rp_preds rep) = 2%nat /\ length (rp_rows rep) = 2%nat.
Proof. exact (conj ci_prints (conj Logic.I (conj ci_predicts (conj cx_takes (conj ci_pieces ci_run))))). Qed.

(** Not with numbers that are not finite, and not if the kind is not known. *)
Theorem C76_finite_refuted : exists ps qs : list (prediction BF0), ps <> qs /\ map pred_type_of ps = map pred_type_of qs /\
  forall pr, predictions_file pr ps = predictions_file pr qs.
Proof. exact ci_null. Qed.
Print Assumptions C76_finite_refuted.
Theorem C76_kind_refuted : exists ps qs : list (prediction BF0), ps <> qs /\ Forall finite_pred ps /\ Forall finite_pred qs /\
  forall pr, predictions_file pr ps = predictions_file pr qs.
Proof. exact ci_kinds. Qed.
Print Assumptions C76_kind_refuted.

(** The command returns an error exactly if the workspace cannot be created or loaded;
    whatever goes wrong afterwards is a panic. *)
Theorem C76_errors :
  forall (O : FOps) (H : hasher) (pf : str -> option O) rd (al : alloc) (dbg : bool) (o : options O) s (text : str) x,
  train_command H pf rd al dbg o s text = Er x <-> open_source H dbg s = Er x.
Proof. exact (@command_errors). Qed.
Print Assumptions C76_errors.

Example C76_errors_example :
  (exists x, open_source (O := BF0) ex_hash false (FromConfig ex_gc (CGreedy f0 (CCoin (@coin_default BF0)))) = Er x) /\
  exists p, train_command ex_hash ex_pf cx_rd ex_al false (cx_quiet FmtJson) cx_src [51; 10] = Pn p.
Proof. exact (conj ci_refused ci_panics). Qed.

(** A quiet run shows no table exactly if there is no predictions file or no example. *)
Theorem C76_quiet :
  forall (e l : b32 -> b32) (p : b32 -> b32 -> b32) (H : hasher) (pf : str -> option (BF e l p)) rd (al : alloc) (dbg : bool)
    s multi (o : options (BF e l p)) (text : str) rep (cs : list str),
  source_ok H dbg s -> takes_multi H dbg s multi -> tm_quiet (op_mode o) = true -> pieces (op_format o) multi text cs ->
  train_command H pf rd al dbg o s text = Ok rep ->
  (rp_rows rep = [] <-> tm_preds (op_mode o) = false \/ cs = []).
Proof. exact run_quiet. Qed.
Print Assumptions C76_quiet.

(** Hence the quiet flag does not silence all output, as main.rs:31 says. *)
Theorem C76_quiet_refuted : exists rep, source_ok ex_hash false cx_src /\ tm_quiet (op_mode (ci_quiet FmtText)) = true /\
  train_command ex_hash ex_pf cx_rd ex_al false (ci_quiet FmtText) cx_src (cx_text FmtText) = Ok rep /\ rp_rows rep <> [].
Proof. exact ci_quiet_run. Qed.
Print Assumptions C76_quiet_refuted.

(** C77.  Exporting a saved model and importing the JSON gives the saved model, whatever
    the order in which the hash maps are visited, if all its numbers are finite. *)
Theorem C77_roundtrip :
  forall (e l : b32 -> b32) (p : b32 -> b32 -> b32) (H : hasher) (dbg : bool) gc (c : rcfg (BF e l p)) R r ex ord ord' d1 d2,
  ws_new H dbg gc c = Ok R -> reach dbg (projT2 R) r -> gc_bits gc < 256 -> gc_seed gc < 2 ^ 32 ->
  plain ex -> any_order ord -> any_order ord' -> finite_weights r -> finite_numbers r ->
  exists v, export_command d1 ord ex (saved gc r) = Ok v /\ import_command d2 ord' v = Ok (saved gc r).
Proof. exact json_roundtrip. Qed.
Print Assumptions C77_roundtrip.

(** Otherwise one of the two commands panics. *)
Theorem C77_not_finite :
  forall (e l : b32 -> b32) (p : b32 -> b32 -> b32) (H : hasher) (dbg : bool) gc (c : rcfg (BF e l p)) R r ex ord ord' d1 d2,
  ws_new H dbg gc c = Ok R -> reach dbg (projT2 R) r -> gc_bits gc < 256 -> gc_seed gc < 2 ^ 32 ->
  plain ex -> any_order ord -> any_order ord' ->
  (~ finite_weights r -> export_command d1 ord ex (saved gc r) = Pn PErr) /\
  (finite_weights r -> ~ finite_numbers r ->
   exists v, export_command d1 ord ex (saved gc r) = Ok v /\ import_command d2 ord' v = Pn PErr).
Proof. exact json_fails. Qed.
Print Assumptions C77_not_finite.

Example C77_example : exists R r f', plain (xp_extra xp_child) /\ any_order (O := BF0) (@rev _) /\
  ws_new ex_hash false ex_gc xp_cfg = Ok R /\ reach false (projT2 R) r /\ ws_learn false (projT2 R) ex_fts xp_lb = Ok (r, f') /\
  gc_bits ex_gc < 256 /\ gc_seed ex_gc < 2 ^ 32 /\ finite_weights r /\ finite_numbers r.
Proof. exact ci_json. Qed.
Example C77_not_finite_example : exists R, ws_new ex_hash false ex_gc (xp_coin (S754_infinity false)) = Ok R /\
  finite_weights (projT2 R) /\ ~ finite_numbers (projT2 R).
Proof. exact xp_lost. Qed.
