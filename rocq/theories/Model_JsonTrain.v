(** Training with the JSON formats: /repo/reductionml-cli/src/main.rs:44-81 [get_parser].
    Here the objects of the pool have no capacity (a real one may have, which only matters
    for lists of strings, see Model_Json and C42). *)
From Coq Require Import List NArith Bool.
From Verif Require Import Base FloatOps Model_Hash Model_Features Model_Types Model_Stack Model_Text Model_Metrics Model_Train Model_Json.
Import ListNotations.
Open Scope N_scope.

Section JsonTrain.
Context {O : FOps} (H : hasher) (dbg : bool) (seed nb : N) (rd : str -> option (json O)).
(** text_parser.rs:20-31 [create_with_workspace] with json_parser.rs:91-111 *)
Definition json_parser (al : alloc) {n} (r : red O n) : parser O := fun ds chunk =>
  json_example O H dbg seed nb al rd (td_in_feats (red_types r)) (td_in_label (red_types r)) (map (fun d => (d, no_caps)) ds) chunk.
Definition json_takes {n} (r : red O n) (chunk : str) : nat := json_need O rd (td_in_feats (red_types r)) chunk.
(** the same with dsjson_parser.rs:17-45, which refuses other types *)
Definition ds_create {n} (r : red O n) : out unit :=
  match td_in_feats (red_types r), td_in_label (red_types r) with FTCb, LTCb => Ok tt | _, _ => Pn PTodo end.
Definition ds_parser : parser O := fun ds chunk => ds_chunk O H dbg seed nb rd ds chunk.
Definition ds_takes (chunk : str) : nat := ds_need O rd chunk.
End JsonTrain.
(** one of the two JSON parsers, with the number of objects it takes *)
Definition json_format {O : FOps} (H : hasher) dbg seed nb rd {n} (r : red O n) (ps : parser O) (need : str -> nat) : Prop :=
  (exists al, ps = json_parser H dbg seed nb rd al r /\ need = json_takes rd r) \/ (ps = ds_parser H dbg seed nb rd /\ need = ds_takes rd).
