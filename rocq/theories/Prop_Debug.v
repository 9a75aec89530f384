(** C51: property theorems about the Debug reduction. *)
From Coq Require Import List NArith Bool.
From Verif Require Import Base FloatOps FloatB32 Model_Hash Model_Features Model_Weights Model_Loss Model_Interactions Model_Types Model_Explore Model_Coin
  Model_Stack Model_Factory Spec_Save Spec_Debug Proof_StackProps Proof_Debug.
Import ListNotations.

(** C51.  A workspace whose configuration has Debug layers at any places answers every
    sequence of calls exactly as the one without them: same predictions, same features
    given back, same panics. *)
Theorem C51_transparent : forall (O : FOps) H dbg gc (c : rcfg O) R, square_on_mtr (without_debug c) -> ws_new H dbg gc c = Ok R ->
  exists R', ws_new H dbg gc (without_debug c) = Ok R' /\ forall cs, answers dbg (projT2 R) cs = answers dbg (projT2 R') cs.
Proof. exact @debug_transparent. Qed.
Print Assumptions C51_transparent.

(** Adding Debug layers to a configuration that works gives one that works. *)
Theorem C51_never_refuses : forall (O : FOps) H dbg gc (c : rcfg O) R', ws_new H dbg gc (without_debug c) = Ok R' ->
  exists R, ws_new H dbg gc c = Ok R /\ forall cs, answers dbg (projT2 R) cs = answers dbg (projT2 R') cs.
Proof. exact @debug_never_refuses. Qed.
Print Assumptions C51_never_refuses.

(** The same errors and panics when creating. *)
Theorem C51_same_refusal : forall (O : FOps) H dbg gc (c : rcfg O), square_on_mtr (without_debug c) ->
  (forall e, ws_new H dbg gc c = Er e <-> ws_new H dbg gc (without_debug c) = Er e) /\
  (forall p, ws_new H dbg gc c = Pn p <-> ws_new H dbg gc (without_debug c) = Pn p).
Proof. exact @debug_same_refusal. Qed.
Print Assumptions C51_same_refusal.

Example C51_example : square_on_mtr (without_debug ex_dbg_cfg) /\
  without_debug ex_dbg_cfg = CGreedy (@f1 BF0) (CCbAdf Mtr (CCoin coin_default)) /\
  is_ok (ws_new ex_hash false ex_gc ex_dbg_cfg) = true /\ is_ok (ws_new ex_hash false ex_gc (without_debug ex_dbg_cfg)) = true.
Proof. repeat split; vm_compute; reflexivity. Qed.

(** Without the condition on SquareCb it is false: a Debug layer hides the ips learner
    from the check that SquareCb makes. *)
Theorem C51_bypass_refuted : forall (O : FOps) H dbg gc cfg (u s e : O) co, coin_new H dbg cfg gc 1 = Ok co ->
  ws_new H dbg gc (CSquareCb u s e (CCbAdf Ips (CCoin cfg))) = Er EInvalidArgument /\
  exists R, ws_new H dbg gc (CSquareCb u s e (CDebug (CCbAdf Ips (CCoin cfg)))) = Ok R.
Proof. exact @debug_bypass. Qed.
Print Assumptions C51_bypass_refuted.

Example C51_bypass_example : is_ok (coin_new ex_hash false (@coin_default BF0) ex_gc 1) = true.
Proof. vm_compute. reflexivity. Qed.
