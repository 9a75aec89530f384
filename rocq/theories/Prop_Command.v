(** C72, C73: property theorems about the train command as a whole. *)
From Coq Require Import List NArith ZArith Bool.
From Verif Require Import Base FloatOps FloatB32 Model_Hash Model_Features Model_Interactions Model_Weights Model_Loss Model_Explore Model_Coin Model_Types
  Model_Stack Model_Factory Model_Text Model_Metrics Model_Train Model_Json Model_JsonTrain Model_Save Model_Command
  Spec_Features Spec_Stack Spec_Text Spec_Metrics Spec_Progress Spec_Save Spec_Command
  Proof_StackProps Proof_TextChunk Proof_Metrics Proof_Train Proof_Progress Proof_JsonTrain Proof_Pieces Proof_Command Proof_CommandEx.
Import ListNotations.

(** C72.  Training with a saved model is training with the workspace it was saved from:
    the same predictions, table and new model, or the same error or panic. *)
Theorem C72_reload :
  forall (e l : b32 -> b32) (p : b32 -> b32 -> b32) (H : hasher) (pf : str -> option (BF e l p)) rd (al : alloc) (dbg : bool)
    gc (c : rcfg (BF e l p)) R r (o : options (BF e l p)) (text : str),
  ws_new H dbg gc c = Ok R -> reach dbg (projT2 R) r ->
  train_command H pf rd al dbg o (FromModel (saved gc r)) text = train_from H pf rd al dbg o gc r text.
Proof. exact command_reload. Qed.
Print Assumptions C72_reload.

(** The model the command saves is again the saved model of a workspace in use. *)
Theorem C72_known :
  forall (e l : b32 -> b32) (p : b32 -> b32 -> b32) (H : hasher) (pf : str -> option (BF e l p)) rd (al : alloc) (dbg : bool)
    (s : source (BF e l p)) (o : options (BF e l p)) (text : str) rep,
  source_ok H dbg s -> train_command H pf rd al dbg o s text = Ok rep -> known H dbg (rp_model rep).
Proof. exact command_known. Qed.
Print Assumptions C72_known.

(** Training in any number of sessions, each continuing with the model the one before has
    saved, gives the predictions and the model of one session over all texts in a row,
    whatever the metrics, the progress table and the quiet flag of each are.  All texts
    but the last must be closed. *)
Theorem C72_sessions :
  forall (e l : b32 -> b32) (p : b32 -> b32 -> b32) (H : hasher) (pf : str -> option (BF e l p)) rd (al : alloc) (dbg : bool)
    (fmt : format) (preds : bool) (s : source (BF e l p)) (texts : list str) ps s' multi (o : options (BF e l p)) rep,
  source_ok H dbg s -> takes_multi H dbg s multi -> sessions H dbg pf rd al fmt preds s texts ps s' ->
  texts <> [] -> Forall (closed fmt multi) (removelast texts) -> op_format o = fmt -> tm_preds (op_mode o) = preds ->
  train_command H pf rd al dbg o s (concat texts) = Ok rep -> s' = FromModel (rp_model rep) /\ ps = rp_preds rep.
Proof. exact sessions_one. Qed.
Print Assumptions C72_sessions.

(** Without table and predictions, one session finishes exactly if both parts do. *)
Theorem C72_quiet :
  forall (e l : b32 -> b32) (p : b32 -> b32 -> b32) (H : hasher) (pf : str -> option (BF e l p)) rd (al : alloc) (dbg : bool)
    (s : source (BF e l p)) multi (o : options (BF e l p)) (t1 t2 : str),
  source_ok H dbg s -> takes_multi H dbg s multi -> op_mode o = mkMode true false -> closed (op_format o) multi t1 ->
  ((exists rep, train_command H pf rd al dbg o s (t1 ++ t2) = Ok rep) <->
   exists rep1 rep2, train_command H pf rd al dbg o s t1 = Ok rep1 /\
     train_command H pf rd al dbg o (FromModel (rp_model rep1)) t2 = Ok rep2).
Proof. exact sessions_quiet. Qed.
Print Assumptions C72_quiet.

(** Two sessions with two bandit examples, in each of the three formats. *)
Example C72_example : forall fmt, exists ps s' rep,
  source_ok ex_hash false cx_src /\ takes_multi ex_hash false cx_src true /\
  sessions ex_hash false ex_pf cx_rd ex_al fmt true cx_src [cx_text fmt; cx_text fmt] ps s' /\
  Forall (closed fmt true) (removelast [cx_text fmt; cx_text fmt]) /\
  train_command ex_hash ex_pf cx_rd ex_al false (cx_opts fmt) cx_src (concat [cx_text fmt; cx_text fmt]) = Ok rep /\
  length ps = 2%nat /\ length (rp_rows rep) = 3%nat.
Proof. exact cx_sessions. Qed.
Example C72_quiet_example : forall fmt, exists rep,
  train_command ex_hash ex_pf cx_rd ex_al false (cx_quiet fmt) cx_src (cx_text fmt ++ cx_text fmt) = Ok rep.
Proof. exact cx_quiet_runs. Qed.

(** Without a newline at the end of the first text it is false: the last example and the
    first of the next text become one. *)
Theorem C72_newline_refuted : exists ps s' rep,
  source_ok ex_hash false cx_simple /\ takes_multi ex_hash false cx_simple false /\
  sessions ex_hash false ex_pf cx_rd ex_al FmtText true cx_simple [cx_open; cx_open] ps s' /\
  train_command ex_hash ex_pf cx_rd ex_al false cx_simple_opts cx_simple (concat [cx_open; cx_open]) = Ok rep /\
  ps <> rp_preds rep /\ s' <> FromModel (rp_model rep).
Proof. exact open_differs. Qed.
Print Assumptions C72_newline_refuted.

(** With a newline but no blank line, for contextual bandits: each part can be learned
    from, together they make the command panic. *)
Theorem C72_blank_line_refuted : exists rep1 rep2 e,
  complete (ex_chunk ++ [10%N]) /\
  train_command ex_hash ex_pf cx_rd ex_al false (cx_quiet FmtText) cx_src (ex_chunk ++ [10%N]) = Ok rep1 /\
  train_command ex_hash ex_pf cx_rd ex_al false (cx_quiet FmtText) (FromModel (rp_model rep1)) (ex_chunk ++ [10%N]) = Ok rep2 /\
  train_command ex_hash ex_pf cx_rd ex_al false (cx_quiet FmtText) cx_src ((ex_chunk ++ [10%N]) ++ ex_chunk ++ [10%N]) = Pn e.
Proof. exact unseparated_fails. Qed.
Print Assumptions C72_blank_line_refuted.

(** C73.  Each text is cut in one way, and the command cuts it so. *)
Theorem C73_pieces :
  forall (O : FOps) n (r : red O n) (fmt : format) (text : str),
  let multi := is_multiline (td_in_feats (red_types r)) (td_in_label (red_types r)) in
  exists cs, chunks_of fmt r text = Some cs /\ pieces fmt multi text cs /\ (forall cs', pieces fmt multi text cs' -> cs' = cs).
Proof. exact pieces_one. Qed.
Print Assumptions C73_pieces.
Example C73_pieces_example : full_lines [97; 10; 10; 98]%N [[97; 10]; [10]; [98]]%N.
Proof. exact pieces_ex. Qed.

(** Progressive validation by the whole command, with each of the three formats: a
    run that finishes has cut the text into its examples as the format says, each parsed
    on its own; the saved model has learned from them in order; each prediction is made by
    the model that has learned from the examples before it only; the predictions file
    holds these in order; each row of the table holds the metrics over the examples so
    far, the last row over all of them. *)
Theorem C73_progressive :
  forall (O : FOps) (H : hasher) (pf : str -> option O) rd (al : alloc) (dbg : bool)
    gc0 (c : rcfg O) R r (o : options O) gc (text : str) rep,
  ws_new H dbg gc0 c = Ok R -> reach dbg (projT2 R) r ->
  train_from H pf rd al dbg o gc r text = Ok rep ->
  exists ps need cs (exs : list (example O)) r',
    get_parser H pf rd al dbg (op_format o) gc r = Ok (ps, need) /\
    pieces (op_format o) (is_multiline (td_in_feats (red_types r)) (td_in_label (red_types r))) text cs /\
    Forall2 (fun chunk ex => ps [] chunk = Ok (fst ex, Some (snd ex))) cs exs /\
    learned dbg r exs r' /\ rp_model rep = saved gc r' /\
    (tm_quiet (op_mode o) = false \/ tm_preds (op_mode o) = true ->
     exists (prs : list (prediction O)) (bs : list bool), progressive dbg r exs prs /\
       rp_preds rep = (if tm_preds (op_mode o) then prs else []) /\
       outputs dbg (mgr_new (op_period o) (S (length (op_metrics o)))) (length exs) = Ok bs /\
       Forall2 (row_after dbg (name_example :: op_metrics o) (points_of exs prs))
         (answered 0 bs ++ (if tm_quiet (op_mode o) then [] else [length exs])) (rp_rows rep)) /\
    (tm_quiet (op_mode o) = true -> tm_preds (op_mode o) = false -> rp_preds rep = [] /\ rp_rows rep = []).
Proof. exact (fun O H pf rd al dbg => from_progressive (O := O) H pf rd al dbg). Qed.
Print Assumptions C73_progressive.

(** And nothing else stops a run. *)
Theorem C73_complete :
  forall (O : FOps) (H : hasher) (pf : str -> option O) rd (al : alloc) (dbg : bool)
    gc0 (c : rcfg O) R r (o : options O) gc (text : str) ps need cs (exs : list (example O)) prs bs rows,
  ws_new H dbg gc0 c = Ok R -> reach dbg (projT2 R) r ->
  get_parser H pf rd al dbg (op_format o) gc r = Ok (ps, need) ->
  pieces (op_format o) (is_multiline (td_in_feats (red_types r)) (td_in_label (red_types r))) text cs ->
  Forall2 (fun chunk ex => ps [] chunk = Ok (fst ex, Some (snd ex))) cs exs ->
  progressive dbg r exs prs ->
  Forall (fun name => exists m0 m, get_metric name = Some m0 /\ add_points m0 (points_of exs prs) = Ok m) (name_example :: op_metrics o) ->
  outputs dbg (mgr_new (op_period o) (S (length (op_metrics o)))) (length exs) = Ok bs ->
  Forall2 (row_after dbg (name_example :: op_metrics o) (points_of exs prs)) (answered 0 bs ++ [length exs]) rows ->
  exists rep, train_from H pf rd al dbg o gc r text = Ok rep.
Proof. exact (fun O H pf rd al dbg => from_complete (O := O) H pf rd al dbg). Qed.
Print Assumptions C73_complete.

(** The hypotheses of both are met in each of the three formats (the second ones by the
    conclusion of the first). *)
Example C73_example : forall fmt, exists R rep, ws_new ex_hash false ex_gc ex_cfg = Ok R /\ reach false (projT2 R) (projT2 R) /\
  train_from ex_hash ex_pf cx_rd ex_al false (cx_opts fmt) ex_gc (projT2 R) (cx_text fmt ++ cx_text fmt) = Ok rep /\
  length (rp_preds rep) = 2%nat.
Proof. exact cx_from. Qed.
Example C73_complete_example : forall fmt, exists R ps need cs (exs : list (example BF0)) prs bs rows,
  ws_new ex_hash false ex_gc ex_cfg = Ok R /\
  get_parser ex_hash ex_pf cx_rd ex_al false fmt ex_gc (projT2 R) = Ok (ps, need) /\
  pieces fmt (is_multiline (td_in_feats (red_types (projT2 R))) (td_in_label (red_types (projT2 R)))) (cx_text fmt ++ cx_text fmt) cs /\
  Forall2 (fun chunk ex => ps [] chunk = Ok (fst ex, Some (snd ex))) cs exs /\
  progressive false (projT2 R) exs prs /\ length prs = 2%nat /\
  Forall (fun name => exists m0 m, get_metric name = Some m0 /\ add_points m0 (points_of exs prs) = Ok m) [name_example; name_ips; name_parsed] /\
  outputs false (mgr_new (Additive 1 : period BF0) 3) (length exs) = Ok bs /\
  Forall2 (row_after false [name_example; name_ips; name_parsed] (points_of exs prs)) (answered 0 bs ++ [length exs]) rows.
Proof. exact cx_complete. Qed.
