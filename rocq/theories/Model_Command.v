(** The train command as a whole: /repo/reductionml-cli/src/train.rs:218-397 [execute]
    with /repo/reductionml-cli/src/main.rs:44-81 [get_parser], from a configuration or a
    saved model and the text of the data file to the predictions, the table and the model
    to be saved.  With one parse thread (for more see Model_Pipeline).
    Left out: opening, reading and writing of the files, the argument parser, messages, the
    terminal.  A configuration file is taken as read (see Model_Config).  The objects of the
    pool have no capacity for the JSON parser (see Model_JsonTrain). *)
From Coq Require Import List NArith Bool.
From Verif Require Import Base FloatOps Model_Hash Model_Features Model_Types Model_Interactions Model_Weights Model_Loss Model_Explore Model_Coin
  Model_Stack Model_Factory Model_Text Model_Metrics Model_Train Model_Json Model_JsonTrain Model_Save.
Import ListNotations.
Open Scope N_scope.

(** main.rs:33-42 *)
Inductive format : Type := FmtText | FmtDs | FmtJson.

(** json_parser.rs:184-196 and dsjson_parser.rs:160-171 [get_next_chunk]: the next line,
    with its newline *)
Definition next_line (input : str) : option str * str :=
  let '(l, rest) := read_line input in
  match l with [] => (None, rest) | _ => (Some l, rest) end.
(** train.rs:307-309: all of them (None: out of steps) *)
Fixpoint line_chunks (fuel : nat) (input : str) : option (list str) :=
  match fuel with
  | 0%nat => None
  | S fuel =>
      match next_line input with
      | (None, _) => Some []
      | (Some c, rest) => match line_chunks fuel rest with Some cs => Some (c :: cs) | None => None end
      end
  end.

(** workspace.rs:19-28: what is saved of a workspace, the features pool is not *)
Record model (A : Type) : Type := mkModel { mo_gc : gconfig; mo_stack : {n : nat & sred A n} }.
Arguments mkModel {A}. Arguments mo_gc {A}. Arguments mo_stack {A}.

(** train.rs:30-70, the arguments that matter here *)
Record options (A : Type) : Type := mkOpts {
  op_format : format; op_mode : tmode; op_metrics : list str; op_period : period A
}.
Arguments mkOpts {A}. Arguments op_format {A}. Arguments op_mode {A}. Arguments op_metrics {A}. Arguments op_period {A}.
(** main.rs [InputConfigArg]: one of the two *)
Inductive source (A : Type) : Type := FromConfig (gc : gconfig) (c : rcfg A) | FromModel (m : model A).
Arguments FromConfig {A}. Arguments FromModel {A}.
(** What a run leaves: the predictions file, the rows of the table, the model. *)
Record report (A : Type) : Type := mkRep {
  rp_preds : list (prediction A); rp_rows : list (list (mvalue A)); rp_model : model A
}.
Arguments mkRep {A}. Arguments rp_preds {A}. Arguments rp_rows {A}. Arguments rp_model {A}.

Section Command.
Context {O : FOps} (H : hasher) (pf : str -> option O) (rd : str -> option (json O)) (al : alloc) (dbg : bool).

(** main.rs:44-81: parser and number of objects taken *)
Definition get_parser (fmt : format) (gc : gconfig) {n} (r : red O n) : out (parser O * (str -> nat)) :=
  match fmt with
  | FmtText => Ok (text_parser H pf dbg (gc_seed gc) (gc_bits gc) r, text_need r)
  | FmtDs => let* _ := ds_create r in Ok (ds_parser H dbg (gc_seed gc) (gc_bits gc) rd, ds_takes rd)
  | FmtJson => Ok (json_parser H dbg (gc_seed gc) (gc_bits gc) rd al r, json_takes rd r)
  end.
Definition chunks_of (fmt : format) {n} (r : red O n) (text : str) : option (list str) :=
  match fmt with
  | FmtText => all_chunks (S (length text)) (is_multiline (td_in_feats (red_types r)) (td_in_label (red_types r))) text
  | _ => line_chunks (S (length text)) text
  end.
(** workspace.rs:146-151 *)
Definition saved (gc : gconfig) {n} (r : red O n) : model O := mkModel gc (existT _ n (ws_save n r)).

(** train.rs:250-397 with the workspace created *)
Definition train_from (o : options O) (gc : gconfig) {n} (r : red O n) (text : str) : out (report O) :=
  let* pn := get_parser (op_format o) gc r in
  let* st := train_start (op_metrics o) (op_period o) r in
  let* cs := opt_or PNone (chunks_of (op_format o) r text) in
  let* x := train_loop dbg (op_mode o) (fst pn) (snd pn) cs (st, []) in
  let* st' := train_end dbg (op_mode o) (fst x) in
  Ok (mkRep (t_preds st') (mg_rows (t_mgr st')) (saved gc (t_red st'))).
(** train.rs:219-248: workspace.rs:108-144 *)
Definition open_source (s : source O) : out (gconfig * anyred O) :=
  match s with
  | FromConfig gc c => let* R := ws_new H dbg gc c in Ok (gc, R)
  | FromModel m => let* r := ws_load _ (projT2 (mo_stack m)) in Ok (mo_gc m, existT _ _ r)
  end.
Definition train_command (o : options O) (s : source O) (text : str) : out (report O) :=
  let* gr := open_source s in train_from o (fst gr) (projT2 (snd gr)) text.
End Command.
