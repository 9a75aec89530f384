(** Property theorems: saving and loading a workspace (C44). *)
From Coq Require Import List NArith Bool.
From Verif Require Import Base FloatOps FloatB32 Model_Hash Model_Features Model_Types Model_Interactions Model_Weights
  Model_Coin Model_Stack Model_Factory Model_Save Spec_Stack Spec_Reductions Spec_Save Proof_StackProps Proof_Save.
Import ListNotations.
Open Scope N_scope.

(** C44.  binary32, any stack, any state reached by training: loading the saved form
    succeeds, the loaded workspace answers every later sequence of calls as the original
    does, and saving it again gives the same saved form. *)
Theorem C44_same_answers :
  forall e l p, let O := BF e l p in
  forall H dbg gc (c : rcfg O) R r, ws_new H dbg gc c = Ok R -> reach dbg (projT2 R) r ->
  exists r', ws_load _ (ws_save _ r) = Ok r' /\
    (forall dbg' cs, answers dbg' r' cs = answers dbg' r cs) /\
    ws_save _ r' = ws_save _ r.
Proof. exact save_load_b32. Qed.
Print Assumptions C44_same_answers.

(** The loaded workspace need not be identical: a weight that is the negative zero comes
    back as the positive zero. *)
Theorem C44_identical_refuted : exists R r f' r', ws_new ex_hash false ex_gc (CCoin (@coin_default BF0)) = Ok R /\
  ws_learn false (projT2 R) sv_fts sv_lb = Ok (r, f') /\ reach false (projT2 R) r /\
  ws_load _ (ws_save _ r) = Ok r' /\
  existsb negz (weights_of r) = true /\ existsb negz (weights_of r') = false /\ r <> r' /\
  existsb (fun x => negb (f_eqb BF0 x f0)) (weights_of r') = true.
Proof. exact save_example. Qed.
Print Assumptions C44_identical_refuted.
