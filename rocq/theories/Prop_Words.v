(** C98: the order and the repetition of the words of a data file. *)
From Coq Require Import List NArith ZArith Bool Reals.
From Verif Require Import Base FloatOps FloatR Model_Hash Model_Features Model_Interactions Model_Types Model_Weights Model_Loss Model_Explore Model_Coin
  Model_Stack Model_Factory Model_Text Model_Metrics Model_Train Model_Json Model_JsonTrain Model_Save Model_Command
  Spec_Features Spec_Stack Spec_Text Spec_Json Spec_Command Spec_Formats Spec_Empty Spec_Shuffle Spec_Words
  Proof_StackProps Proof_TextChunk Proof_JsonTrain Proof_ShuffleEx Proof_Words Proof_WordsTrain Proof_WordsEx Proof_WordsDebug Proof_WordsDebugEx.
Import ListNotations.
Open Scope N_scope.

(** C98.  Two chunks, in the same or in different formats, that write the same words in another
    order, or with namespaces split or joined: both are accepted, whatever recycled objects the
    parsers use, the predictions are the same, and without hash collisions so is the model
    after learning (exact arithmetic). *)
Theorem C98_order : forall H gc (NR : no_repeat H gc) (pf : str -> option RF) (rd : str -> option (json RF))
  al1 al2 fmt1 fmt2 (c : rcfg RF) R0 r ps1 ps2 need1 need2 ds1 ds2 c1 c2 e1 e2,
  ws_new H false gc c = Ok R0 -> reach false (projT2 R0) r -> elem_free (projT1 R0) (projT2 R0) ->
  get_parser H pf rd al1 false fmt1 gc r = Ok (ps1, need1) -> get_parser H pf rd al2 false fmt2 gc r = Ok (ps2, need2) ->
  gc_bits gc < 32 -> Forall pooled ds1 -> Forall pooled ds2 -> writes pf rd fmt1 c1 e1 -> writes pf rd fmt2 c2 e2 ->
  exam_types e1 = types_of r -> exam_types e2 = types_of r -> exam_fits H false (gc_seed gc) e1 -> exam_fits H false (gc_seed gc) e2 ->
  exam_with same_words e1 e2 ->
  exists f g, ps1 ds1 c1 = Ok (f, exam_label e1) /\ ps2 ds2 c2 = Ok (g, exam_label e2) /\
    (forall p f', ws_predict false r f = Ok (p, f') -> exists g', ws_predict false r g = Ok (p, g')) /\
    (no_clash_fts H gc f -> forall lb r' f', ws_learn false r f lb = Ok (r', f') -> exists g', ws_learn false r g lb = Ok (r', g')).
Proof. exact words_order. Qed.
Print Assumptions C98_order.

(** C98.  If the words are the same and only the sums of their values agree - a word given
    several times, or once with the sum - the predictions are still the same. *)
Theorem C98_totals : forall H gc (NR : no_repeat H gc) (pf : str -> option RF) (rd : str -> option (json RF))
  al1 al2 fmt1 fmt2 (c : rcfg RF) R0 r ps1 ps2 need1 need2 ds1 ds2 c1 c2 e1 e2,
  ws_new H false gc c = Ok R0 -> reach false (projT2 R0) r -> elem_free (projT1 R0) (projT2 R0) ->
  get_parser H pf rd al1 false fmt1 gc r = Ok (ps1, need1) -> get_parser H pf rd al2 false fmt2 gc r = Ok (ps2, need2) ->
  gc_bits gc < 32 -> Forall pooled ds1 -> Forall pooled ds2 -> writes pf rd fmt1 c1 e1 -> writes pf rd fmt2 c2 e2 ->
  exam_types e1 = types_of r -> exam_types e2 = types_of r -> exam_fits H false (gc_seed gc) e1 -> exam_fits H false (gc_seed gc) e2 ->
  exam_with same_totals e1 e2 ->
  exists f g, ps1 ds1 c1 = Ok (f, exam_label e1) /\ ps2 ds2 c2 = Ok (g, exam_label e2) /\
    forall p f', ws_predict false r f = Ok (p, f') -> exists g', ws_predict false r g = Ok (p, g').
Proof. exact words_totals. Qed.
Print Assumptions C98_totals.

(** C98.  A whole run of the train command does not depend on the order of the words in the
    examples of the data file: the predictions, the table and the saved model are the same. *)
Theorem C98_training : forall H gc (NR : no_repeat H gc) (pf : str -> option RF) (rd : str -> option (json RF))
  al1 al2 o1 o2 (c : rcfg RF) R0 t1 t2 cs1 cs2 es1 es2 rep,
  ws_new H false gc c = Ok R0 -> elem_free (projT1 R0) (projT2 R0) ->
  op_mode o1 = op_mode o2 -> op_metrics o1 = op_metrics o2 -> op_period o1 = op_period o2 ->
  gc_bits gc < 32 -> es1 <> [] ->
  pieces (op_format o1) (is_multiline (fst (types_of (projT2 R0))) (snd (types_of (projT2 R0)))) t1 cs1 ->
  pieces (op_format o2) (is_multiline (fst (types_of (projT2 R0))) (snd (types_of (projT2 R0)))) t2 cs2 ->
  Forall2 (writes pf rd (op_format o1)) cs1 es1 -> Forall2 (writes pf rd (op_format o2)) cs2 es2 ->
  Forall (fun e => exam_types e = types_of (projT2 R0) /\ exam_fits H false (gc_seed gc) e) es1 ->
  Forall (fun e => exam_types e = types_of (projT2 R0) /\ exam_fits H false (gc_seed gc) e) es2 ->
  Forall2 (fun e e' => exam_with same_words e e' /\ exam_label e = exam_label e') es1 es2 ->
  Forall (clash_free H pf rd al1 (op_format o1) gc (projT2 R0)) cs1 ->
  train_command H pf rd al1 false o1 (FromConfig gc c) t1 = Ok rep -> train_command H pf rd al2 false o2 (FromConfig gc c) t2 = Ok rep.
Proof. exact words_training. Qed.
Print Assumptions C98_training.

(** C98.  In a debug build: two runs that return leave the same. *)
Theorem C98_training_debug : forall H gc (NR : no_repeat H gc) (pf : str -> option RF) (rd : str -> option (json RF))
  al1 al2 o1 o2 (c : rcfg RF) R0 t1 t2 cs1 cs2 es1 es2 rep1 rep2,
  ws_new H false gc c = Ok R0 -> elem_free (projT1 R0) (projT2 R0) ->
  op_mode o1 = op_mode o2 -> op_metrics o1 = op_metrics o2 -> op_period o1 = op_period o2 ->
  gc_bits gc < 32 -> es1 <> [] ->
  pieces (op_format o1) (is_multiline (fst (types_of (projT2 R0))) (snd (types_of (projT2 R0)))) t1 cs1 ->
  pieces (op_format o2) (is_multiline (fst (types_of (projT2 R0))) (snd (types_of (projT2 R0)))) t2 cs2 ->
  Forall2 (writes pf rd (op_format o1)) cs1 es1 -> Forall2 (writes pf rd (op_format o2)) cs2 es2 ->
  Forall (fun e => exam_types e = types_of (projT2 R0) /\ exam_fits H false (gc_seed gc) e) es1 ->
  Forall (fun e => exam_types e = types_of (projT2 R0) /\ exam_fits H false (gc_seed gc) e) es2 ->
  Forall2 (fun e e' => exam_with same_words e e' /\ exam_label e = exam_label e') es1 es2 ->
  Forall (clash_free H pf rd al1 (op_format o1) gc (projT2 R0)) cs1 ->
  train_command H pf rd al1 true o1 (FromConfig gc c) t1 = Ok rep1 -> train_command H pf rd al2 true o2 (FromConfig gc c) t2 = Ok rep2 ->
  rep1 = rep2.
Proof. exact words_training_debug. Qed.
Print Assumptions C98_training_debug.

(** Three lines, "1 |a x y:2 | u", "1 | u|a y:2 |a x" and "1 |a y x y | u", with an interaction
    of the namespace a with the default one: the hypotheses hold, and a run succeeds. *)
Example C98_holds : exists (R0 : anyred RF) rep, ws_new ex_hash false sh_gc wd_cfg = Ok R0 /\ elem_free (projT1 R0) (projT2 R0) /\
  types_of (projT2 R0) = (FTSimple, LTSimple) /\
  (forall i, (i < 3)%nat -> pieces FmtText (is_multiline (fst (types_of (projT2 R0))) (snd (types_of (projT2 R0)))) (wd_line i) [wd_line i]) /\
  clash_free ex_hash wd_pf wd_rd ex_al FmtText sh_gc (projT2 R0) (wd_line 0%nat) /\
  train_command ex_hash wd_pf wd_rd ex_al false wd_opts (FromConfig sh_gc wd_cfg) (wd_line 0%nat) = Ok rep.
Proof. exact wd_example. Qed.
Example C98_holds_sides : no_repeat ex_hash sh_gc /\
  (forall i, (i < 3)%nat -> writes wd_pf wd_rd FmtText (wd_line i) (wd_exam i)) /\ (forall i, exam_fits ex_hash false 0 (wd_exam i)).
Proof. exact (conj sh_no_repeat (conj wd_writes wd_fits)). Qed.
Example C98_holds_words : exam_with same_words (wd_exam 0%nat) (wd_exam 1%nat) /\ exam_with same_totals (wd_exam 0%nat) (wd_exam 2%nat) /\
  wd_line 0%nat <> wd_line 1%nat /\ wd_line 0%nat <> wd_line 2%nat.
Proof. exact (conj wd_same (conj wd_totals wd_differ)). Qed.
Example C98_holds_debug : forall i, (i < 2)%nat -> exists rep,
  train_command ex_hash wd_pf wd_rd ex_al true wd_opts (FromConfig sh_gc wd_cfg) (wd_line i) = Ok rep.
Proof. exact wd_debug. Qed.
