(** C98 for debug builds: two runs that do not panic report the same (C95 and C98). *)
From Coq Require Import List NArith ZArith Bool Reals.
From Verif Require Import Base FloatOps FloatR Model_Hash Model_Features Model_Interactions Model_Types Model_Weights Model_Loss Model_Explore Model_Coin
  Model_Stack Model_Factory Model_Text Model_Metrics Model_Train Model_Json Model_JsonTrain Model_Save Model_Command
  Spec_Features Spec_Stack Spec_Text Spec_Json Spec_Command Spec_Formats Spec_Empty Spec_Shuffle Spec_Builds Spec_Words
  Proof_StackProps Proof_TextChunk Proof_JsonTrain Proof_ShuffleEx Proof_Builds Proof_BuildsData Proof_BuildsPy Proof_BuildsPipe Proof_Words Proof_WordsTrain Proof_WordsEx.
Import ListNotations.
Open Scope N_scope.

Lemma words_training_debug : forall H gc (NR : no_repeat H gc) (pf : str -> option RF) (rd : str -> option (json RF))
  al1 al2 o1 o2 (c : rcfg RF) R0 t1 t2 cs1 cs2 es1 es2 rep1 rep2,
  ws_new H false gc c = Ok R0 -> elem_free (projT1 R0) (projT2 R0) ->
  op_mode o1 = op_mode o2 -> op_metrics o1 = op_metrics o2 -> op_period o1 = op_period o2 ->
  gc_bits gc < 32 -> es1 <> [] ->
  pieces (op_format o1) (is_multiline (fst (types_of (projT2 R0))) (snd (types_of (projT2 R0)))) t1 cs1 ->
  pieces (op_format o2) (is_multiline (fst (types_of (projT2 R0))) (snd (types_of (projT2 R0)))) t2 cs2 ->
  Forall2 (writes pf rd (op_format o1)) cs1 es1 -> Forall2 (writes pf rd (op_format o2)) cs2 es2 ->
  Forall (fun e => exam_types e = types_of (projT2 R0) /\ exam_fits H false (gc_seed gc) e) es1 ->
  Forall (fun e => exam_types e = types_of (projT2 R0) /\ exam_fits H false (gc_seed gc) e) es2 ->
  Forall2 (fun e e' => exam_with same_words e e' /\ exam_label e = exam_label e') es1 es2 ->
  Forall (clash_free H pf rd al1 (op_format o1) gc (projT2 R0)) cs1 ->
  train_command H pf rd al1 true o1 (FromConfig gc c) t1 = Ok rep1 -> train_command H pf rd al2 true o2 (FromConfig gc c) t2 = Ok rep2 ->
  rep1 = rep2.
Proof.
  intros H gc NR pf rd al1 al2 o1 o2 c R0 t1 t2 cs1 cs2 es1 es2 rep1 rep2 HN HE A1 A2 A3 HB HS P1 P2 W1 W2 F1 F2 HW HC R1 R2.
  pose proof (ag_command (O:=RF) H pf rd al1 o1 (FromConfig gc c) t1) as G1.
  pose proof (ag_command (O:=RF) H pf rd al2 o2 (FromConfig gc c) t2) as G2.
  rewrite R1 in G1. rewrite R2 in G2. unfold agree in G1, G2.
  pose proof (words_training H gc NR pf rd al1 al2 o1 o2 c R0 t1 t2 cs1 cs2 es1 es2 rep1 HN HE A1 A2 A3 HB HS P1 P2 W1 W2 F1 F2 HW HC G1) as T.
  congruence.
Qed.
