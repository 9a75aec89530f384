(** The Python module: /repo/reductionml-python/src/*.rs.
    A Python program is a sequence of calls on numbered objects; the global interpreter
    lock makes each call atomic.
    - Reading a Python dictionary ([depythonize]) is left out: configurations, JSON models
      and JSON text are arguments.  Model_Save's form stands for the bytes of a model.
    - PyO3 checks the class of arguments and throws TypeError; it turns a panic into an
      exception.  After a panic inside predict, learn or predict_then_learn the features
      and the model may be half changed, so the run ends there.
    - Destructors run when an object is no longer used; here that is a call of its own.
    - Printing, the version and the constructors of predictions are left out. *)
From Coq Require Import List NArith Bool.
From Verif Require Import Base FloatOps Model_Hash Model_Features Model_Weights Model_Interactions Model_Types Model_Explore Model_Coin Model_Stack Model_Factory
  Model_Text Model_Train Model_Json Model_Config Model_Save Model_Export.
Import ListNotations.
Open Scope N_scope.

(** parsers.rs:43-49 *)
Inductive pyformat : Type := FVwText | FJson | FDsJson.
(** core workspace.rs:140-151: a saved workspace *)
Definition pysaved (O : FOps) : Type := (gconfig * (nat -> extra O) * {n : nat & sred O n})%type.
Definition pyord (O : FOps) : Type := list (N * list (list O)) -> list (N * list (list O)).

(** The objects of the module: features.rs:9-17, labels.rs:38-163, predictions.rs:40-139,
    workspace.rs:121-123, parsers.rs:16-22 *)
Inductive pyobj (O : FOps) : Type :=
| OFeats (f : features O)
| OLabel (l : label O)
| OPred (p : prediction O)
| OWs (gc : gconfig) (ex : nat -> extra O) (R : anyred O)
| OParser (fm : pyformat) (ft : feat_type) (lt : label_type) (seed nb : N).
Arguments OFeats {O}. Arguments OLabel {O}. Arguments OPred {O}. Arguments OWs {O}. Arguments OParser {O}.

(** The calls; numbers are references to objects.  [ex]: see Model_Export. *)
Inductive pyop (O : FOps) : Type :=
| NewSparse                                        (* features.rs:21-24 *)
| NewCb                                            (* features.rs:37-40 *)
| NewSimpleLabel (value weight : O)                (* labels.rs:57-61 *)
| NewCbLabel (action : N) (cost prob : O)          (* labels.rs:114-117 *)
| FromConfig (gc : gconfig) (ex : nat -> extra O) (c : rcfg O)  (* workspace.rs:127-132 *)
| FromModel (s : pysaved O)                        (* workspace.rs:134-138 *)
| FromJsonModel (ex : nat -> extra O) (v : json O) (* workspace.rs:140-146 *)
| SaveModel (w : nat)                              (* workspace.rs:148-151 *)
| SaveJson (w : nat)                               (* workspace.rs:153-159 *)
| MakeParser (fm : pyformat) (ft : feat_type) (lt : label_type) (seed nb : N) (* parsers.rs:91-112 *)
| ParserOf (w : nat) (fm : pyformat)               (* workspace.rs:161-174 *)
| Parse (p : nat) (s : str)                        (* parsers.rs:114-163 *)
| Predict (w f : nat)                              (* workspace.rs:176-180 *)
| PredictThenLearn (w f l : nat)                   (* workspace.rs:182-191 *)
| Learn (w f l : nat)                              (* workspace.rs:193-202 *)
| EntryTypes (w : nat)                             (* workspace.rs:204-206 *)
| Read (i : nat)                                   (* the getters of labels and predictions *)
| Drop (i : nat).                                  (* features.rs:27-33, 43-49 *)
Arguments NewSparse {O}. Arguments NewCb {O}. Arguments NewSimpleLabel {O}. Arguments NewCbLabel {O}. Arguments FromConfig {O}.
Arguments FromModel {O}. Arguments FromJsonModel {O}. Arguments SaveModel {O}. Arguments SaveJson {O}. Arguments MakeParser {O}.
Arguments ParserOf {O}. Arguments Parse {O}. Arguments Predict {O}. Arguments PredictThenLearn {O}. Arguments Learn {O}.
Arguments EntryTypes {O}. Arguments Read {O}. Arguments Drop {O}.

(** What the program sees. *)
Inductive pyres (O : FOps) : Type :=
| RNone
| RNew (i : nat)                                   (* a new object *)
| RParsed (f : nat) (l : option nat)               (* the tuple of [parse] *)
| RBytes (s : pysaved O)
| RJson (v : json O)
| RTypes (t : tdesc)
| RLabel (l : label O)
| RPred (p : prediction O)
| RError (e : error)                               (* RuntimeError, lib.rs:18-30 *)
| RPanic (p : panic)                               (* PanicException *)
| RTypeError.
Arguments RNone {O}. Arguments RNew {O}. Arguments RParsed {O}. Arguments RBytes {O}. Arguments RJson {O}. Arguments RTypes {O}.
Arguments RLabel {O}. Arguments RPred {O}. Arguments RError {O}. Arguments RPanic {O}. Arguments RTypeError {O}.

Section Python.
Context {O : FOps} (H : hasher) (dbg : bool) (pf : str -> option O) (rd : str -> option (json O)).

Definition pyheap : Type := list (option (pyobj O)).
Definition py_get (h : pyheap) (i : nat) : option (pyobj O) := match nth_error h i with Some (Some o) => Some o | _ => None end.
Definition py_new (h : pyheap) (o : pyobj O) : pyres O * option pyheap := (RNew (length h), Some (h ++ [Some o])).
Definition py_same (h : pyheap) (r : pyres O) : pyres O * option pyheap := (r, Some h).

(** predictions.rs:149-163: the prediction as a Python object *)
Definition py_pred (h : pyheap) (p : prediction O) : pyres O * option pyheap :=
  match p with PrBinary _ => py_same h (RPanic PTodo) | _ => py_new h (OPred p) end.
(** labels.rs:171-179: the label as a Python object *)
Definition py_parsed (h : pyheap) (f : features O) (lb : option (label O)) : pyres O * option pyheap :=
  match lb with
  | None => (RParsed (length h) None, Some (h ++ [Some (OFeats f)]))
  | Some (LbBinary _) => py_same h (RPanic PTodo)
  | Some l => (RParsed (length h) (Some (S (length h))), Some (h ++ [Some (OFeats f); Some (OLabel l)]))
  end.
(** parsers.rs:51-90: only the dsjson parser looks at the types (dsjson_parser.rs:17-45) *)
Definition py_parser (h : pyheap) (fm : pyformat) (ft : feat_type) (lt : label_type) (seed nb : N) : pyres O * option pyheap :=
  match fm, ft, lt with
  | FDsJson, FTCb, LTCb => py_new h (OParser fm ft lt seed nb)
  | FDsJson, _, _ => py_same h (RPanic PTodo)
  | _, _, _ => py_new h (OParser fm ft lt seed nb)
  end.
(** [unwrap] at the creation of a workspace, and on the way out *)
Definition py_made (h : pyheap) (ex : nat -> extra O) (x : out (gconfig * anyred O)) : pyres O * option pyheap :=
  match unwrap_res x with
  | Ok (gc, R) => py_new h (OWs gc ex R)
  | Er e => py_same h (RError e)
  | Pn p => py_same h (RPanic p)
  end.

(** One call, given where new feature objects come from: [fresh] for a new one, [ps] to
    parse.  [None]: there is no such object.  The new heap is missing after a panic that
    ends the run. *)
Definition py_call (fresh : sfeats O)
    (ps : pyformat -> feat_type -> label_type -> N -> N -> str -> out (features O * option (label O)))
    (ord : pyord O) (h : pyheap) (op : pyop O) : option (pyres O * option pyheap) :=
  match op with
  | NewSparse => Some (py_new h (OFeats (FtsSimple fresh)))
  | NewCb => Some (py_new h (OFeats (FtsCb None [])))
  | NewSimpleLabel v w => Some (py_new h (OLabel (LbSimple v w)))
  | NewCbLabel a c p => Some (py_new h (OLabel (LbCb a c p)))
  | FromConfig gc ex c => Some (py_made h ex (let* R := ws_new H dbg gc c in Ok (gc, R)))
  | FromModel s =>
      let '(gc, ex, m) := s in Some (py_made h ex (let* r := ws_load (projT1 m) (projT2 m) in Ok (gc, existT _ _ r)))
  | FromJsonModel ex v => Some (py_made h ex (ws_import dbg ord v))
  | SaveModel w =>
      match py_get h w with
      | Some (OWs gc ex R) => Some (py_same h (RBytes (gc, ex, existT _ _ (ws_save (projT1 R) (projT2 R)))))
      | Some _ => Some (py_same h RTypeError)
      | None => None
      end
  | SaveJson w =>
      match py_get h w with
      | Some (OWs gc ex R) =>
          Some (py_same h match unwrap_res (ws_export dbg ord ex gc R) with Ok v => RJson v | Er e => RError e | Pn p => RPanic p end)
      | Some _ => Some (py_same h RTypeError)
      | None => None
      end
  | MakeParser fm ft lt seed nb => Some (py_parser h fm ft lt seed nb)
  | ParserOf w fm =>
      match py_get h w with
      | Some (OWs gc ex R) =>
          Some (py_parser h fm (td_in_feats (red_types (projT2 R))) (td_in_label (red_types (projT2 R))) (gc_seed gc) (gc_bits gc))
      | Some _ => Some (py_same h RTypeError)
      | None => None
      end
  | Parse p s =>
      match py_get h p with
      | Some (OParser fm ft lt seed nb) =>
          Some match ps fm ft lt seed nb s with
               | Ok (f, lb) => py_parsed h f lb
               | Er e => py_same h (RError e)
               | Pn p => py_same h (RPanic p)
               end
      | Some _ => Some (py_same h RTypeError)
      | None => None
      end
  | Predict w f =>
      match py_get h w, py_get h f with
      | Some (OWs gc ex R), Some (OFeats x) =>
          Some match ws_predict dbg (projT2 R) x with
               | Ok (p, x') => py_pred (upd f (Some (OFeats x')) h) p
               | Er e => (RError e, None)
               | Pn p => (RPanic p, None)
               end
      | Some _, Some _ => Some (py_same h RTypeError)
      | _, _ => None
      end
  | PredictThenLearn w f l =>
      match py_get h w, py_get h f, py_get h l with
      | Some (OWs gc ex R), Some (OFeats x), Some (OLabel lb) =>
          Some match ws_ptl dbg (projT2 R) x lb with
               | Ok (p, r, x') => py_pred (upd w (Some (OWs gc ex (existT _ _ r))) (upd f (Some (OFeats x')) h)) p
               | Er e => (RError e, None)
               | Pn p => (RPanic p, None)
               end
      | Some _, Some _, Some _ => Some (py_same h RTypeError)
      | _, _, _ => None
      end
  | Learn w f l =>
      match py_get h w, py_get h f, py_get h l with
      | Some (OWs gc ex R), Some (OFeats x), Some (OLabel lb) =>
          Some match ws_learn dbg (projT2 R) x lb with
               | Ok (r, x') => py_same (upd w (Some (OWs gc ex (existT _ _ r))) (upd f (Some (OFeats x')) h)) RNone
               | Er e => (RError e, None)
               | Pn p => (RPanic p, None)
               end
      | Some _, Some _, Some _ => Some (py_same h RTypeError)
      | _, _, _ => None
      end
  | EntryTypes w =>
      match py_get h w with
      | Some (OWs gc ex R) => Some (py_same h (RTypes (red_types (projT2 R))))
      | Some _ => Some (py_same h RTypeError)
      | None => None
      end
  | Read i =>
      match py_get h i with
      | Some (OLabel l) => Some (py_same h (RLabel l))
      | Some (OPred p) => Some (py_same h (RPred p))
      | Some _ => Some (py_same h RTypeError)
      | None => None
      end
  | Drop i => match py_get h i with Some _ => Some (py_same (upd i None h) RNone) | None => None end
  end.

(** What a call depends on besides its arguments: the capacities of the objects in the
    pool (see Model_Json), the allocator, the order of hash maps, and how many objects a
    failing parser had taken (they are dropped, not returned). *)
Record pyworld : Type := mkWorld { pw_caps : nat -> caps; pw_al : alloc; pw_ord : pyord O; pw_lost : nat }.
(** The pool (lib.rs:14-16) and the objects *)
Record pystate : Type := mkPy { py_pool : list (sfeats O); py_heap : pyheap }.

(** parsers.rs:51-90 with [parse_chunk] of the three parsers, objects from the pool *)
Definition py_ps (w : pyworld) (pool : list (sfeats O)) (fm : pyformat) (ft : feat_type) (lt : label_type) (seed nb : N) (s : str)
  : out (features O * option (label O)) :=
  match fm with
  | FVwText => parse_chunk H pf dbg seed nb ft lt pool s
  | FJson => json_example O H dbg seed nb (pw_al w) rd ft lt (map (fun d => (snd d, pw_caps w (N.to_nat (fst d)))) (enum_from 0 pool)) s
  | FDsJson => ds_chunk O H dbg seed nb rd pool s
  end.
Definition py_need (fm : pyformat) (ft : feat_type) (lt : label_type) (s : str) : nat :=
  match fm with FVwText => objects_used ft lt s | FJson => json_need O rd ft s | FDsJson => ds_need O rd s end.
(** The pool after a call. *)
Definition py_pool_after (w : pyworld) (st : pystate) (op : pyop O) : list (sfeats O) :=
  let pool := py_pool st in
  match op with
  | NewSparse => snd (pool_get sf_new pool)
  | Parse p s =>
      match py_get (py_heap st) p with
      | Some (OParser fm ft lt seed nb) =>
          let n := py_need fm ft lt s in
          match py_ps w pool fm ft lt seed nb s with
          | Ok _ => skipn n pool
          | _ => skipn (Nat.min (pw_lost w) n) pool
          end
      | _ => pool
      end
  | Drop i => match py_get (py_heap st) i with Some (OFeats f) => give_back f pool | _ => pool end
  | _ => pool
  end.
Definition py_exec (w : pyworld) (st : pystate) (op : pyop O) : option (pyres O * option pystate) :=
  match py_call (fst (pool_get sf_new (py_pool st))) (py_ps w (py_pool st)) (pw_ord w) (py_heap st) op with
  | Some (r, h) => Some (r, option_map (mkPy (py_pool_after w st op)) h)
  | None => None
  end.
(** A run: the results, and the last state.  It ends early at a panic that ends runs, and
    at a call that mentions an object that does not exist. *)
Fixpoint py_run (ops : list (pyworld * pyop O)) (st : pystate) : list (pyres O) * pystate :=
  match ops with
  | [] => ([], st)
  | (w, op) :: ops =>
      match py_exec w st op with
      | None => ([], st)
      | Some (r, None) => ([r], st)
      | Some (r, Some st') => let x := py_run ops st' in (r :: fst x, snd x)
      end
  end.
Definition py_start : pystate := mkPy [] [].
End Python.
Arguments mkWorld {O}. Arguments pw_caps {O}. Arguments pw_al {O}. Arguments pw_ord {O}. Arguments pw_lost {O}.
Arguments mkPy {O}. Arguments py_pool {O}. Arguments py_heap {O}. Arguments py_start {O}.
