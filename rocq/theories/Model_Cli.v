(** The text the command-line program reads and writes itself: the progress option
    (/repo/reductionml-cli/src/train.rs:79-113), the predictions file (train.rs:416-418
    with /repo/reductionml-core/src/types.rs:34-62), and the two commands that turn a
    saved model into JSON and back (/repo/reductionml-cli/src/export_model.rs:21-31,
    import_model.rs:22-35).
    - [str::to_lowercase], the printing of an f32 by serde_json and the reading of one by
      [f32::from_str] are arguments.
    - The JSON text of a model is left out: the commands pass the tree on (Model_Export).
      What the commands read and write on disk is taken as read and written. *)
From Coq Require Import String List NArith Bool.
From Verif Require Import Base FloatOps Model_Hash Model_Features Model_Types Model_Interactions Model_Weights Model_Loss Model_Explore Model_Coin
  Model_Stack Model_Factory Model_Text Model_Metrics Model_Train Model_Json Model_Config Model_JsonTrain Model_Save Model_Export Model_Command.
Import ListNotations.
Open Scope N_scope.

(** [u32::from_str] of the Rust library: a plus sign before other characters is skipped,
    then there must be digits only, at least one, and the number must fit *)
Definition is_digit (c : N) : bool := (48 <=? c) && (c <=? 57).
Definition parse_u32 (s : str) : option N :=
  let ds := match s with c :: (_ :: _) as r => if c =? 43 then r else s | _ => s end in
  match ds with
  | [] => None
  | _ => if forallb is_digit ds && (undec ds <? 2 ^ 32) then Some (undec ds) else None
  end.

(** train.rs:79-113 [OutputPeriod::from_str]; the message of the error is left out *)
Definition parse_period {A} (lower : str -> str) (pf : str -> option A) (value : str) : option (period A) :=
  let v := lower value in
  match v with
  | c :: rest =>
      if c =? 43 then option_map Additive (parse_u32 rest)
      else if c =? 42 then option_map Multiplicative (pf rest)
      else option_map Additive (parse_u32 v)
  | [] => option_map Additive (parse_u32 v)
  end.

Section Predictions.
Context {O : FOps} (pr : O -> str).

(** serde_json: an f32 that is not finite becomes null *)
Definition num_text (x : O) : str := if f_isnan O x || f_isinf O x then lit "null" else pr x.
(** serde_json: the elements of a sequence, a comma between two *)
Fixpoint commas (l : list str) : str :=
  match l with [] => [] | [x] => x | x :: r => x ++ lit "," ++ commas r end.
(** a tuple *)
Definition pair_text (e : N * O) : str := lit "[" ++ dec (fst e) ++ lit "," ++ num_text (snd e) ++ lit "]".
(** types.rs:34-62: derived [Serialize]; the enum is untagged *)
Definition pred_text (p : prediction O) : str :=
  match p with
  | PrScalar p raw => lit "{""prediction"":" ++ num_text p ++ lit ",""raw_prediction"":" ++ num_text raw ++ lit "}"
  | PrBinary b => if b then lit "true" else lit "false"
  | PrScores l | PrProbs l => lit "[" ++ commas (map pair_text l) ++ lit "]"
  end.
(** train.rs:416-418: one [writeln!] after the other *)
Definition predictions_file (ps : list (prediction O)) : str := concat (map (fun p => pred_text p ++ [10]) ps).
End Predictions.

Section Models.
Context {O : FOps} (dbg : bool) (ord : list (N * list (list O)) -> list (N * list (list O))) (ex : nat -> extra O).

(** export_model.rs:21-31; [ord] is the order in which a hash map is visited, see
    Model_Export *)
Definition export_command (m : model O) : out (json O) :=
  let* r := unwrap_res (ws_load _ (projT2 (mo_stack m))) in
  unwrap_res (ws_export dbg ord ex (mo_gc m) (existT _ _ r)).
(** import_model.rs:22-35 *)
Definition import_command (v : json O) : out (model O) :=
  let* gr := unwrap_res (ws_import dbg ord v) in
  Ok (saved (fst gr) (projT2 (snd gr))).
End Models.
