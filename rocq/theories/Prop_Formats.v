(** C85: the same example written in different formats. *)
From Coq Require Import List NArith Bool.
From Verif Require Import Base FloatOps FloatB32 Model_Hash Model_Features Model_Types Model_Interactions Model_Weights Model_Loss Model_Explore Model_Coin
  Model_Stack Model_Factory Model_Text Model_Metrics Model_Train Model_Json Model_JsonTrain Model_Save Model_Command
  Spec_Features Spec_Stack Spec_Text Spec_Json Spec_JsonLabel Spec_Command Spec_Formats Proof_StackProps Proof_TextChunk Proof_JsonTrain Proof_CommandEx Proof_Formats Proof_FormatsEx.
Import ListNotations.
Open Scope N_scope.

(** Two chunks that write the same example, in the same or in different formats, are both
    accepted, whatever recycled objects the parsers use, and give the same example. *)
Theorem C85_same_example : forall (O : FOps) (H : hasher) (pf : str -> option O) (rd : str -> option (json O)) (dbg : bool)
  (al1 al2 : alloc) (fmt1 fmt2 : format) (gc : gconfig) (n : nat) (r : red O n) (ps1 ps2 : parser O) (need1 need2 : str -> nat)
  (ds1 ds2 : list (sfeats O)) (c1 c2 : str) (e : exam O),
  get_parser H pf rd al1 dbg fmt1 gc r = Ok (ps1, need1) -> get_parser H pf rd al2 dbg fmt2 gc r = Ok (ps2, need2) ->
  gc_bits gc < 32 -> Forall pooled ds1 -> Forall pooled ds2 -> writes pf rd fmt1 c1 e -> writes pf rd fmt2 c2 e ->
  exam_types e = types_of r -> exam_fits H dbg (gc_seed gc) e ->
  exists x y, ps1 ds1 c1 = Ok x /\ ps2 ds2 c2 = Ok y /\ same_example x y /\ snd x = exam_label e.
Proof. exact @same_features. Qed.
Print Assumptions C85_same_example.

(** Training with the same examples in another format has the same outcome: the same
    predictions, table and saved model, or the same failure. *)
Theorem C85_training : forall (O : FOps) (H : hasher) (pf : str -> option O) (rd : str -> option (json O)) (dbg : bool)
  (al1 al2 : alloc) (o1 o2 : options O) (s : source O) (gc : gconfig) (R : anyred O) (t1 t2 : str) (cs1 cs2 : list str) (es : list (exam O)),
  open_source H dbg s = Ok (gc, R) ->
  op_mode o1 = op_mode o2 -> op_metrics o1 = op_metrics o2 -> op_period o1 = op_period o2 ->
  gc_bits gc < 32 -> es <> [] ->
  pieces (op_format o1) (is_multiline (fst (types_of (projT2 R))) (snd (types_of (projT2 R)))) t1 cs1 ->
  pieces (op_format o2) (is_multiline (fst (types_of (projT2 R))) (snd (types_of (projT2 R)))) t2 cs2 ->
  Forall2 (writes pf rd (op_format o1)) cs1 es -> Forall2 (writes pf rd (op_format o2)) cs2 es ->
  Forall (fun e => exam_types e = types_of (projT2 R) /\ exam_fits H dbg (gc_seed gc) e) es ->
  train_command H pf rd al1 dbg o1 s t1 = train_command H pf rd al2 dbg o2 s t2.
Proof. exact @same_training. Qed.
Print Assumptions C85_training.

(** Two contextual bandit examples in each of the formats: features with numbers, with
    strings, without values, a vector, the default namespace; the run is successful. *)
Example C85_holds : forall fmt, exists gc R rep, open_source ex_hash false cx_src = Ok (gc, R) /\ gc_bits gc < 32 /\
  pieces fmt (is_multiline (fst (types_of (projT2 R))) (snd (types_of (projT2 R)))) (fx_text fmt) (fx_pieces fmt) /\
  Forall2 (writes ex_pf fx_rd fmt) (fx_pieces fmt) [fx_exam; fx_exam] /\
  Forall (fun e => exam_types e = types_of (projT2 R) /\ exam_fits ex_hash false (gc_seed gc) e) [fx_exam; fx_exam] /\
  train_command ex_hash ex_pf fx_rd ex_al false (cx_opts fmt) cx_src (fx_text fmt) = Ok rep /\
  length (rp_preds rep) = 2%nat /\ length (rp_rows rep) = 3%nat.
Proof. exact fx_trains. Qed.
