(** The train command: /repo/reductionml-cli/src/train.rs, with one thread, and
    /repo/reductionml-core/src/object_pool.rs.
    Left out: reading and writing of files, rendering of the table on the terminal, and
    the serialised form of a prediction (see Model_Cli; the predictions file is the list of
    predictions written).  The saved model is the workspace at the end (see
    Model_Save). *)
From Coq Require Import List NArith ZArith Bool.
From Verif Require Import Base FloatOps Model_Hash Model_Features Model_Types Model_Stack Model_Text Model_Metrics.
Import ListNotations.
Open Scope N_scope.

(** object_pool.rs:26-28 [get_object] and 31-33 [return_object]: a stack, its top first *)
Definition pool_get {A} (default : A) (pool : list A) : A * list A :=
  match pool with [] => (default, []) | x :: r => (x, r) end.
Definition pool_return {A} (x : A) (pool : list A) : list A := x :: pool.

(** train.rs:74-77 *)
Inductive period (A : Type) : Type := Additive (p : N) | Multiplicative (p : A).
Arguments Additive {A}. Arguments Multiplicative {A}.

(** train.rs:154-161 [TrainResultManager]: the rows of the table instead of the table,
    the number of columns *)
Record manager (A : Type) : Type := mkMgr {
  mg_iter : N;
  mg_next : N;
  mg_period : period A;
  mg_rows : list (list (mvalue A));
  mg_columns : nat
}.
Arguments mkMgr {A}. Arguments mg_iter {A}. Arguments mg_next {A}. Arguments mg_period {A}.
Arguments mg_rows {A}. Arguments mg_columns {A}.

Section Train.
Context (O : FOps).

(** train.rs:164-176 *)
Definition mgr_new (p : period O) (columns : nat) : manager O := mkMgr 0 0 p [] columns.

(** train.rs:179-190 [inc_iteration] *)
Definition inc_iteration (dbg : bool) (m : manager O) : out (bool * manager O) :=
  if mg_next m <=? mg_iter m then
    let* next := match mg_period m with
                 | Additive p => add32 dbg (mg_iter m) p
                 | Multiplicative p => Ok (f_to_u32 O (f_mul O (f_of_N (mg_iter m)) p))
                 end in
    let* i := add32 dbg (mg_iter m) 1 in
    Ok (true, mkMgr i next (mg_period m) (mg_rows m) (mg_columns m))
  else
    let* i := add32 dbg (mg_iter m) 1 in
    Ok (false, mkMgr i (mg_next m) (mg_period m) (mg_rows m) (mg_columns m)).

(** train.rs:192-199 [add_results] *)
Definition add_results (vs : list (mvalue O)) (m : manager O) : out (manager O) :=
  if Nat.eqb (length vs) (mg_columns m)
  then Ok (mkMgr (mg_iter m) (mg_next m) (mg_period m) (mg_rows m ++ [vs]) (mg_columns m))
  else Pn PTodo.

(** types.rs:203-211, 360-369, sparse_namespaced_features.rs:434-437
    [clear_and_return_object]: shared features first, then the actions *)
Definition give_back (f : features O) (pool : list (sfeats O)) : list (sfeats O) :=
  match f with
  | FtsSimple s => pool_return (sf_clear s) pool
  | FtsCb sh acts =>
      fold_left (fun p a => pool_return (sf_clear a) p) acts
        (match sh with Some s => pool_return (sf_clear s) pool | None => pool end)
  end.

(** The quiet flag and whether there is a predictions file. *)
Record tmode : Type := mkMode { tm_quiet : bool; tm_preds : bool }.

(** What [process_example] changes: workspace, predictions file, metrics, manager; the
    pool is passed separately. *)
Record tstate (n : nat) : Type := mkTs {
  t_red : red O n;
  t_preds : list (prediction O);
  t_metrics : list (metric O);
  t_mgr : manager O
}.
Arguments mkTs {n}. Arguments t_red {n}. Arguments t_preds {n}. Arguments t_metrics {n}. Arguments t_mgr {n}.

(** train.rs:401-435 [process_example]; returns the features for [give_back] *)
Definition process_example (dbg : bool) (md : tmode) {n} (st : tstate n) (f : features O) (lb : option (label O))
  : out (tstate n * features O) :=
  let* lb := opt_or PNone lb in
  if negb (tm_quiet md) || tm_preds md then
    let* x := ws_ptl dbg (t_red st) f lb in
    let '(p, r', f') := x in
    let preds := if tm_preds md then t_preds st ++ [p] else t_preds st in
    let* ms := mapm (fun m => metric_add m f' lb p) (t_metrics st) in
    let* sm := inc_iteration dbg (t_mgr st) in
    let* mg := (if fst sm then let* vs := mapm (metric_value dbg) ms in add_results vs (snd sm)
                else Ok (snd sm)) in
    Ok (mkTs r' preds ms mg, f')
  else
    let* x := ws_learn dbg (t_red st) f lb in
    Ok (mkTs (fst x) (t_preds st) (t_metrics st) (t_mgr st), snd x).

(** train.rs:290-300: the metrics and the manager at the start *)
Definition train_start (names : list str) (p : period O) {n} (r : red O n) : out (tstate n) :=
  let* ms := mapm (fun name => opt_or PNone (get_metric name)) (name_example :: names) in
  Ok (mkTs r [] ms (mgr_new p (length ms))).

(** train.rs:386-389: the last row *)
Definition train_end (dbg : bool) (md : tmode) {n} (st : tstate n) : out (tstate n) :=
  if tm_quiet md then Ok st
  else
    let* vs := mapm (metric_value dbg) (t_metrics st) in
    let* mg := add_results vs (t_mgr st) in
    Ok (mkTs (t_red st) (t_preds st) (t_metrics st) mg).

(** The parser: chunk and the objects of the pool give an example; how many objects it
    takes.  Instantiated with the text parser below. *)
Definition parser : Type := list (sfeats O) -> str -> out (features O * option (label O)).
(** main.rs:51-58 and train.rs:265-274: the text parser for this workspace *)
Definition text_parser (H : hasher) (pf : str -> option O) (dbg : bool) (seed nb : N) {n} (r : red O n) : parser :=
  parse_chunk H pf dbg seed nb (td_in_feats (red_types r)) (td_in_label (red_types r)).
Definition text_need {n} (r : red O n) (chunk : str) : nat :=
  objects_used (td_in_feats (red_types r)) (td_in_label (red_types r)) chunk.

(** train.rs:308-324: the loop of one thread, over the chunks of the file *)
Definition train_chunk (dbg : bool) (md : tmode) (ps : parser) (need : str -> nat) {n}
    (st : tstate n * list (sfeats O)) (chunk : str) : out (tstate n * list (sfeats O)) :=
  let* x := unwrap_res (ps (snd st) chunk) in
  let* y := process_example dbg md (fst st) (fst x) (snd x) in
  Ok (fst y, give_back (snd y) (skipn (need chunk) (snd st))).
Definition train_loop (dbg : bool) (md : tmode) (ps : parser) (need : str -> nat) {n}
    (chunks : list str) (st : tstate n * list (sfeats O)) : out (tstate n * list (sfeats O)) :=
  foldm (train_chunk dbg md ps need) chunks st.

(** train.rs:218-397 [execute] from the created workspace to the end *)
Definition train (H : hasher) (pf : str -> option O) (dbg : bool) (md : tmode) (seed nb : N)
    (names : list str) (p : period O) {n} (r : red O n) (pool : list (sfeats O)) (chunks : list str) : out (tstate n) :=
  let* st := train_start names p r in
  let* x := train_loop dbg md (text_parser H pf dbg seed nb r) (text_need r) chunks (st, pool) in
  train_end dbg md (fst x).
End Train.
Arguments mgr_new {O}. Arguments inc_iteration {O}. Arguments add_results {O}. Arguments give_back {O}.
Arguments mkTs {O n}. Arguments t_red {O n}. Arguments t_preds {O n}. Arguments t_metrics {O n}. Arguments t_mgr {O n}.
Arguments process_example {O} dbg md {n}. Arguments train_start {O} names p {n}. Arguments train_end {O} dbg md {n}.
Arguments text_parser {O} H pf dbg seed nb {n}. Arguments text_need {O n}.
Arguments train_chunk {O} dbg md ps need {n}. Arguments train_loop {O} dbg md ps need {n}.
Arguments train {O} H pf dbg md seed nb names p {n}.
