(** Property theorems: models as JSON (C56, C57). *)
From Coq Require Import String List NArith ZArith Bool Floats.SpecFloat.
From Verif Require Import Base FloatOps FloatB32 Model_Hash Model_Features Model_Weights Model_Loss Model_Interactions
  Model_Types Model_Explore Model_Coin Model_Stack Model_Factory Model_Text Model_Json Model_Config Model_Save Model_Export
  Spec_Stack Spec_Reductions Spec_Save Spec_Export Proof_StackProps Proof_Save Proof_ExportReach.
Import ListNotations.
Open Scope N_scope.

(** C56.  binary32, any stack, any state reached by training in which all numbers are
    finite, any order of the hash maps: the export succeeds, importing it succeeds with the
    same global settings, the imported workspace answers every later sequence of calls as
    the original does, exporting it gives the same JSON, and it is the workspace that
    saving and loading in the binary format gives. *)
Theorem C56_same_answers :
  forall e l p, let O := BF e l p in
  forall H dbg gc (c : rcfg O) R r ex ord ord' d1 d2,
  ws_new H dbg gc c = Ok R -> reach dbg (projT2 R) r -> gc_bits gc < 256 -> gc_seed gc < 2 ^ 32 ->
  plain ex -> any_order ord -> any_order ord' -> finite_weights r -> finite_numbers r ->
  exists v r', ws_export d1 ord ex gc (existT _ _ r) = Ok v /\ ws_import d2 ord' v = Ok (gc, existT _ _ r') /\
    (forall d cs, answers d r' cs = answers d r cs) /\ (forall d, ws_export d ord ex gc (existT _ _ r') = Ok v) /\
    ws_load _ (ws_save _ r) = Ok r'.
Proof. exact b_export_import. Qed.
Print Assumptions C56_same_answers.

Example C56_same_answers_example : plain (xp_extra xp_child) /\ any_order (O:=BF0) (@rev _) /\
  exists R r f', ws_new ex_hash false ex_gc xp_cfg = Ok R /\ ws_learn false (projT2 R) ex_fts xp_lb = Ok (r, f') /\
  finite_weights r /\ finite_numbers r /\ existsb (fun x => negb (f_eqb BF0 x f0)) (weights_of r) = true.
Proof. split; [exact xp_plain|]. split; [exact any_order_rev|]. exact xp_trained. Qed.

(** C57.  Exactly when a number is not finite this fails: a weight makes the export panic,
    another number makes the import fail. *)
Theorem C57_not_finite :
  forall e l p, let O := BF e l p in
  forall H dbg gc (c : rcfg O) R r ex ord ord' d1 d2,
  ws_new H dbg gc c = Ok R -> reach dbg (projT2 R) r -> gc_bits gc < 256 -> gc_seed gc < 2 ^ 32 ->
  plain ex -> any_order ord -> any_order ord' ->
  (~ finite_weights r -> ws_export d1 ord ex gc (existT _ _ r) = Pn PErr) /\
  (finite_weights r -> ~ finite_numbers r ->
   exists v, ws_export d1 ord ex gc (existT _ _ r) = Ok v /\ ws_import d2 ord' v = Er EInvalidConfiguration).
Proof. exact b_export_fails. Qed.
Print Assumptions C57_not_finite.

Example C57_not_finite_example : exists R, ws_new ex_hash false ex_gc (xp_coin (S754_infinity false)) = Ok R /\
  finite_weights (projT2 R) /\ ~ finite_numbers (projT2 R).
Proof. exact xp_lost. Qed.

(** C57.  Not every trained model can be exported: after one example with the feature value
    3e38 a weight is not finite. *)
Theorem C57_trained_refuted : exists R r f', ws_new ex_hash false ex_gc (xp_coin (@fl BF0 4%Z)) = Ok R /\
  ws_learn false (projT2 R) xp_big (LbSimple (@fl BF0 10%Z) f1) = Ok (r, f') /\ ~ finite_weights r /\
  ws_export false (fun l => l) (xp_extra xp_child) ex_gc (existT _ _ r) = Pn PErr.
Proof. exact xp_panic. Qed.
Print Assumptions C57_trained_refuted.

(** C57.  Nor every model with finite numbers: an accepted configuration whose loss function
    has the keys of a weight table makes the export panic. *)
Theorem C57_keys_refuted : exists g R, load ex_hash false xp_file = Ok (g, R) /\ finite_weights (projT2 R) /\ finite_numbers (projT2 R) /\
  ws_export false (fun l => l) (xp_extra (lit "CbAdf", Some xp_inner)) g R = Pn PErr.
Proof. exact xp_keys. Qed.
Print Assumptions C57_keys_refuted.
